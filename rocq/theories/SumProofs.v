Require Import String Ascii List Arith NArith Lia Bool Sorted.
From Verif Require Import Base PyStr PyStrFacts IdModel IdProofs FsModel FsSpec FsProofs FsHist FsExtract FsRuns DirSpec SumModel SumSpec.
Import ListNotations.
Open Scope string_scope.

Lemma in_turn_ok : forall {A B} (f : A -> list B * option gone) l,
  (forall x, In x l -> snd (f x) = None) ->
  in_turn f l = (flat_map (fun x => fst (f x)) l, None).
Proof.
  intros A B f. induction l as [|x l IH]; intro H; cbn; [reflexivity|].
  pose proof (H x (or_introl eq_refl)) as Hx. destruct (f x) as [out e]. cbn in Hx. subst e.
  rewrite IH by (intros y Hy; apply H; now right). reflexivity.
Qed.

Lemma in_turn_bad : forall {A B} (f : A -> list B * option gone) l x e, In x l -> snd (f x) = Some e ->
  snd (in_turn f l) <> None.
Proof.
  intros A B f. induction l as [|y l IH]; intros x e Hx He; [destruct Hx|]. cbn.
  destruct Hx as [->|Hx].
  - destruct (f x) as [out e']. cbn in He. subst e'. discriminate.
  - destruct (f y) as [out [e'|]]; [discriminate|]. specialize (IH x e Hx He). destruct (in_turn f l). exact IH.
Qed.

Section Proofs.
  Variable R : Type.
  Variable pickle : R -> string.
  Variable unpickle : string -> option R.
  Hypothesis codec : faithful pickle unpickle.
  Variable root : string.
  Variable importable : string -> bool.
  Variable listing : fs -> path -> list string.
  Hypothesis Hl : some_order listing.

  (** Only directories of runs are made. *)
  Lemma dirs_only : forall h, Forall (regular R) h -> forall q,
    lookup (run_events R pickle root [] h) q = Some Dir -> exists e, In e h /\ In q (prefixes (loc_dir root (e_loc R e))).
  Proof.
    intro h. induction h as [|e h IH] using rev_ind; intros H q Hq; [discriminate|].
    apply Forall_app in H. destruct H as [H1 H2]. inversion H2 as [|? ? (Hr & Hid & k & Hk) _]; subst.
    pose proof (written_run R pickle root h H1) as W.
    unfold run_events in Hq. rewrite fold_left_app in Hq. cbn [fold_left] in Hq.
    fold (run_events R pickle root [] h) in Hq. set (s := run_events R pickle root [] h) in *.
    assert (He : store_error s (loc_dir root (e_loc R e)) (l_name (e_loc R e)) = None)
      by (apply usable_no_error; apply (wr_usable _ _ _ _ _ W)).
    assert (Hd : loc_dir root (e_loc R e) <> []) by discriminate.
    destruct (finished_store s _ _ (pickle (e_result R e)) Hd He) as (F1 & F2 & F3).
    assert (Es : run_event R pickle root s e = apply_all s (store_ops s
      (loc_dir root (e_loc R e)) (l_name (e_loc R e)) (pickle (e_result R e)))).
    { unfold run_event. rewrite Hr. cbn [steps]. now rewrite firstn_all. }
    rewrite Es in Hq.
    destruct (in_dec (list_eq_dec string_dec) q (prefixes (loc_dir root (e_loc R e)))) as [Hi|Hi].
    - exists e. split; [apply in_or_app; right; now left|exact Hi].
    - destruct (list_eq_dec string_dec q (result_path (loc_dir root (e_loc R e)) (l_name (e_loc R e)))) as [->|Hn].
      + rewrite F2 in Hq. discriminate.
      + rewrite F3 in Hq by assumption. destruct (IH H1 q Hq) as (e' & A & B). exists e'. split; [apply in_or_app; now left|exact B].
  Qed.

  Lemma problem_dir : forall h, Forall (regular R) h -> forall p,
    lookup (run_events R pickle root [] h) [root; p] <> None <-> exists e, In e h /\ l_problem (e_loc R e) = p.
  Proof.
    intros h Hh p. pose proof (written_run R pickle root h Hh) as W. set (s := run_events R pickle root [] h) in *. split.
    - intro H. destruct (lookup s [root; p]) as [[|b]|] eqn:E; [| |congruence].
      + destruct (dirs_only h Hh _ E) as (e & A & B). exists e. split; [exact A|].
        apply prefixes_in in B. destruct B as [_ (t & B)]. unfold loc_dir, run_path in B. cbn in B. now inversion B.
      + destruct (wr_files _ _ _ _ _ W _ _ E) as (l & _ & _ & K & _). unfold loc_path, result_path, loc_dir, run_path in K. discriminate.
    - intros (e & A & B).
      assert (D : lookup s [root; p; l_algo (e_loc R e)] = Some Dir).
      { apply (wr_base _ _ _ _ _ W). exists e, (l_id (e_loc R e)). unfold of_run. auto. }
      rewrite (tr_parents _ (wr_tree _ _ _ _ _ W) [root; p] _ _ ltac:(apply prefixes_in; split; [discriminate|now exists [l_algo (e_loc R e)]]) ltac:(discriminate) D).
      discriminate.
  Qed.

  Lemma never_file : forall h, Forall (regular R) h -> forall q b, (length q < 5)%nat ->
    lookup (run_events R pickle root [] h) q <> Some (File b).
  Proof.
    intros h Hh q b Hq E. destruct (wr_files _ _ _ _ _ (written_run R pickle root h Hh) _ _ E) as (l & _ & _ & K & _).
    subst q. unfold loc_path, result_path, loc_dir, run_path in Hq. cbn in Hq. lia.
  Qed.

  Lemma count_flat : forall (g : string -> option R) ids n,
    length (flat_map (fun ix : nat * string => match g (snd ix) with Some r => [(fst ix, r)] | None => [] end) (number_from n ids)) =
    length (filter (fun i => match g i with Some _ => true | None => false end) ids).
  Proof.
    intros g. induction ids as [|i ids IH]; intro n; cbn; [reflexivity|]. rewrite app_length, IH.
    destruct (g i); reflexivity.
  Qed.

  Lemma stored_event : forall h p a i k, last_stored R h p a i k <> None -> exists e, In e h /\ of_run R p a i e.
  Proof.
    intros h p a i k H. unfold last_stored in H.
    destruct (in_dec (fun x y => location_eq_dec x y) {| l_problem := p; l_algo := a; l_id := i; l_name := str_of_N k |}
      (map (e_loc R) h)) as [Hi|Hi].
    - apply in_map_iff in Hi. destruct Hi as (e & Q & I). exists e. split; [exact I|]. unfold of_run. rewrite Q. auto.
    - exfalso. apply H. assert (O : forall h', (forall e, In e h' -> e_loc R e <> {| l_problem := p; l_algo := a; l_id := i; l_name := str_of_N k |}) ->
        outcome R h' {| l_problem := p; l_algo := a; l_id := i; l_name := str_of_N k |} = Untouched).
      { intro h'. induction h' as [|e h' IH] using rev_ind; intro Hn; [reflexivity|]. unfold outcome in *.
        rewrite fold_left_app. cbn [fold_left]. unfold hear at 1.
        destruct (location_eq_dec (e_loc R e) {| l_problem := p; l_algo := a; l_id := i; l_name := str_of_N k |}) as [Q|_].
        - exfalso. apply (Hn e); [apply in_or_app; right; now left|exact Q].
        - apply IH. intros e' I. apply Hn. apply in_or_app. now left. }
      rewrite O; [reflexivity|]. intros e I Q. apply Hi. rewrite <- Q. now apply in_map.
  Qed.

  (** One algorithm on one problem. *)
  Lemma algo_entries : forall h p a, Forall (regular R) h -> (exists e i, In e h /\ of_run R p a i e) ->
    exists groups, f_algo R unpickle (run_events R pickle root [] h) root p a = (map (fun g => (p, a, fst g, snd g)) groups, None) /\
      NoDup (map fst groups) /\
      (forall k ids, In k (map fst groups) -> runs_with R h p a k ids -> forall e, In (k, e) groups -> length e = length ids) /\
      (forall k, In k (map fst groups) <-> exists i, last_stored R h p a i k <> None).
  Proof.
    intros h p a Hh He. destruct (extract_after R pickle unpickle codec root h p a Hh He) as (ids & groups & E1 & E2 & E3 & E4 & E5 & E6).
    exists groups. unfold f_algo. rewrite E1. split; [reflexivity|].
    assert (Hin : forall i k, last_stored R h p a i k <> None -> In i ids).
    { intros i k H. apply E3. exact (stored_event h p a i k H). }
    assert (N1 : NoDup (map fst groups)).
    { clear - E4. induction E4 as [|x l _ IH Hx]; constructor; [|exact IH]. intro I. rewrite Forall_forall in Hx. specialize (Hx x I). lia. }
    split; [exact N1|]. split.
    - intros k ids' Hk [Nd Hd] e Hi. pose proof (E6 k e Hi) as Q. apply (f_equal (@length _)) in Q.
      rewrite map_length, (count_flat (fun i => last_stored R h p a i k)) in Q. rewrite Q.
      assert (Nf : NoDup (filter (fun i => match last_stored R h p a i k with Some _ => true | None => false end) ids)).
      { apply NoDup_filter. clear - E2. induction E2 as [|x l _ IH Hx]; constructor; [|exact IH]. intro I. rewrite Forall_forall in Hx.
        destruct (Hx x I) as [_ K]. now apply K. }
      apply Nat.le_antisymm.
      + apply NoDup_incl_length; [exact Nf|]. intros i I. apply filter_In in I. destruct I as [_ I]. apply Hd.
        destruct (last_stored R h p a i k); congruence.
      + apply NoDup_incl_length; [exact Nd|]. intros i I. apply Hd in I. apply filter_In. split; [now apply (Hin i k)|].
        destruct (last_stored R h p a i k); congruence.
    - intro k. rewrite E5. split; [intros (i & _ & H); now exists i|]. intros (i & H). exists i. split; [now apply (Hin i k)|exact H].
  Qed.

  Lemma NoDup_flat : forall {A B} (f : A -> list B) l, NoDup l -> (forall x, In x l -> NoDup (f x)) ->
    (forall x y z, In x l -> In y l -> In z (f x) -> In z (f y) -> x = y) -> NoDup (flat_map f l).
  Proof.
    intros A B f. induction l as [|x l IH]; intros N H D; cbn; [constructor|]. inversion N; subst.
    apply NoDup_app_disj; [apply H; now left|apply IH; auto|].
    - intros y Hy. apply H. now right.
    - intros a b z Ha Hb. apply D; now right.
    - intros z Hz I. apply in_flat_map in I. destruct I as (y & Hy & Hz'). assert (x = y) by (apply (D x y z); auto; [now left|now right]). subst. contradiction.
  Qed.

  Lemma map_flat : forall {A B C} (g : B -> C) (f : A -> list B) l, map g (flat_map f l) = flat_map (fun x => map g (f x)) l.
  Proof. intros A B C g f. induction l as [|x l IH]; cbn; [reflexivity|]. now rewrite map_app, IH. Qed.

  Definition key (x : string * string * N * list (item R)) : string * string * N := fst x.

  Lemma summary_ok : forall h, Forall (regular R) h ->
    (forall e, In e h -> importable (l_problem (e_loc R e)) = true) ->
    let r := each_result R unpickle importable listing (run_events R pickle root [] h) root in
    snd r = None /\ NoDup (map key (fst r)) /\
    (forall p a k, In (p, a, k) (map key (fst r)) <-> exists i, last_stored R h p a i k <> None) /\
    (forall p a k e ids, In (p, a, k, e) (fst r) -> runs_with R h p a k ids -> length e = length ids).
  Proof.
    intros h Hh Hi. pose proof (written_run R pickle root h Hh) as W. set (s := run_events R pickle root [] h) in *. cbv zeta.
    unfold each_result. destruct (lookup s [root]) as [[|b]|] eqn:Er.
    2: { exfalso. apply (never_file h Hh [root] b); [cbn; lia|exact Er]. }
    2: { assert (Hn : h = []).
         { destruct h as [|e h]; [reflexivity|]. exfalso.
           destruct (problem_dir (e :: h) Hh (l_problem (e_loc R e))) as [_ K].
           assert (D : lookup s [root; l_problem (e_loc R e)] <> None) by (apply K; exists e; split; [now left|reflexivity]).
           destruct (lookup s [root; l_problem (e_loc R e)]) as [n|] eqn:E; [|congruence].
           rewrite (tr_parents _ (wr_tree _ _ _ _ _ W) [root] _ _ ltac:(apply prefixes_in; split; [discriminate|now exists [l_problem (e_loc R e)]]) ltac:(discriminate) E) in Er.
           discriminate. }
         subst h. cbn. split; [reflexivity|]. split; [constructor|]. split; [|intros p a k e ids []].
         intros p a k. split; [intros []|]. intros (i & K). now apply K. }
    clear Er.
    (* each problem *)
    assert (P : forall p, In p (listing s [root]) -> importable p = true /\
      exists out, f_problem R unpickle listing s root p = (out, None) /\ NoDup (map key out) /\
        (forall q a k, In (q, a, k) (map key out) <-> q = p /\ exists i, last_stored R h p a i k <> None) /\
        (forall q a k e ids, In (q, a, k, e) out -> runs_with R h p a k ids -> length e = length ids)).
    { intros p Hp. apply Hl in Hp. cbn [app] in Hp. assert (Hp' := Hp). apply (problem_dir h Hh) in Hp'.
      split; [destruct Hp' as (e & A & <-); now apply Hi|].
      unfold f_problem. destruct (lookup s [root; p]) as [[|b]|] eqn:Ep; [| |congruence].
      2: { exfalso. apply (never_file h Hh [root; p] b); [cbn; lia|exact Ep]. }
      assert (A : forall a, In a (listing s [root; p]) -> lookup s [root; p; a] = Some Dir /\ exists e i, In e h /\ of_run R p a i e).
      { intros a Ha. apply Hl in Ha. cbn [app] in Ha. destruct (lookup s [root; p; a]) as [[|b]|] eqn:Ea; [| |congruence].
        - split; [reflexivity|]. now apply (wr_base _ _ _ _ _ W).
        - exfalso. apply (never_file h Hh [root; p; a] b); [cbn; lia|exact Ea]. }
      rewrite in_turn_ok.
      2: { intros a Ha. destruct (A a Ha) as [D Ev]. rewrite D. destruct (algo_entries h p a Hh Ev) as (g & G & _). unfold s. rewrite G. reflexivity. }
      set (F := fun a => fst (match lookup s [root; p; a] with Some Dir => f_algo R unpickle s root p a | _ => ([], None) end)).
      assert (FF : forall a, In a (listing s [root; p]) ->
        NoDup (map key (F a)) /\
        (forall q c k, In (q, c, k) (map key (F a)) <-> q = p /\ c = a /\ exists i, last_stored R h p a i k <> None) /\
        (forall q c k e ids, In (q, c, k, e) (F a) -> runs_with R h p c k ids -> length e = length ids)).
      { intros a Ha. destruct (A a Ha) as [D Ev]. unfold F. rewrite D.
        destruct (algo_entries h p a Hh Ev) as (g & G & G1 & G2 & G3). fold s in G. rewrite G. cbn [fst].
        assert (Mk : map key (map (fun g0 : N * list (item R) => (p, a, fst g0, snd g0)) g) = map (fun k => (p, a, k)) (map fst g))
          by (rewrite !map_map; reflexivity).
        rewrite Mk. split; [|split].
        - apply FinFun.Injective_map_NoDup; [intros x y Q; now inversion Q|exact G1].
        - intros q c k. rewrite in_map_iff. setoid_rewrite G3. split.
          + intros (k' & Q & I). inversion Q; subst. auto.
          + intros (-> & -> & I). now exists k.
        - intros q c k e ids I Rw. apply in_map_iff in I. destruct I as ([k' e'] & Q & I). cbn in Q. inversion Q; subst.
          apply (G2 k ids); auto. apply in_map_iff. exists (k, e). auto. }
      exists (flat_map F (listing s [root; p])). split; [reflexivity|]. rewrite map_flat. split; [|split].
      - apply NoDup_flat; [apply Hl|intros a Ha; apply (FF a Ha)|].
        intros a c [[q d] k] Ha Hc I1 I2. apply (FF a Ha) in I1. apply (FF c Hc) in I2. destruct I1 as (_ & <- & _), I2 as (_ & <- & _). reflexivity.
      - intros q a k. rewrite in_flat_map. split.
        + intros (c & Hc & I). apply (FF c Hc) in I. destruct I as (-> & -> & I). auto.
        + intros (-> & i & I). assert (Ha : In a (listing s [root; p])).
          { apply Hl. cbn [app]. rewrite (proj2 (wr_base _ _ _ _ _ W p a)); [discriminate|].
            destruct (stored_event h p a i k I) as (e & X & Y). now exists e, i. }
          exists a. split; [exact Ha|]. apply (FF a Ha). split; [reflexivity|]. split; [reflexivity|]. now exists i.
      - intros q a k e ids I Rw. apply in_flat_map in I. destruct I as (c & Hc & I).
        destruct (FF c Hc) as (_ & _ & G). now apply (G q a k e ids). }
    set (F := fun p => fst (if importable p then f_problem R unpickle listing s root p else ([], Some (NoModule p)))).
    rewrite in_turn_ok.
    2: { intros p Hp. destruct (P p Hp) as (-> & out & -> & _). reflexivity. }
    cbn [fst snd]. fold F. split; [reflexivity|].
    assert (FF : forall p, In p (listing s [root]) -> NoDup (map key (F p)) /\
        (forall q a k, In (q, a, k) (map key (F p)) <-> q = p /\ exists i, last_stored R h p a i k <> None) /\
        (forall q a k e ids, In (q, a, k, e) (F p) -> runs_with R h p a k ids -> length e = length ids)).
    { intros p Hp. destruct (P p Hp) as (Im & out & E & X). unfold F. rewrite Im, E. exact X. }
    rewrite map_flat. split; [|split].
    - apply NoDup_flat; [apply Hl|intros p Hp; apply (FF p Hp)|].
      intros p c [[q d] k] Hp Hc I1 I2. apply (FF p Hp) in I1. apply (FF c Hc) in I2. destruct I1 as (<- & _), I2 as (<- & _). reflexivity.
    - intros q a k. rewrite in_flat_map. split.
      + intros (c & Hc & I). apply (FF c Hc) in I. destruct I as (-> & I). auto.
      + intros (i & I). assert (Hq : In q (listing s [root])).
        { apply Hl. cbn [app]. apply (problem_dir h Hh). destruct (stored_event h q a i k I) as (e & X & Y & _). now exists e. }
        exists q. split; [exact Hq|]. apply (FF q Hq). split; [reflexivity|]. now exists i.
    - intros q a k e ids I Rw. apply in_flat_map in I. destruct I as (c & Hc & I).
      destruct (FF c Hc) as (_ & K & G). assert (q = c).
      { apply (K q a k). apply in_map_iff. now exists (q, a, k, e). }
      subst c. now apply (G q a k e ids).
  Qed.

  Lemma stray_stops : forall s x, lookup s [root] = Some Dir -> lookup s [root; x] <> None -> importable x = false ->
    snd (each_result R unpickle importable listing s root) <> None.
  Proof.
    intros s x Hd Hx Hi. unfold each_result. rewrite Hd.
    apply (in_turn_bad _ _ x (NoModule x)); [now apply Hl|]. now rewrite Hi.
  Qed.
End Proofs.
