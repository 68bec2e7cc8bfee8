(** The extractor. *)
Require Import String Ascii List Arith NArith Lia Bool Permutation Sorted.
From Verif Require Import PyStr PyStrFacts IdModel IdSpec IdProofs FsModel FsSpec FsProofs FsHist.
Import ListNotations.
Open Scope string_scope.

(** * Names *)
Lemma substring_split : forall n s m, (String.length s <= n + m)%nat ->
  substring 0 n s ++ substring n m s = s.
Proof.
  induction n as [|n IH]; intros s m H.
  - destruct s as [|c s]; cbn; [now destruct m|].
    destruct m; cbn in *; [lia|]. f_equal. apply (take_all s m). cbn in H. lia.
  - destruct s as [|c s]; cbn in *; [reflexivity|]. now rewrite IH by lia.
Qed.

Lemma stem_ok : forall a, stem (a ++ ".pickle") = Some a.
Proof.
  intro a. unfold stem. rewrite length_app_s.
  change (String.length ".pickle") with 7.
  replace (String.length a + 7 - 7)%nat with (String.length a) by lia.
  rewrite substring_skip. change (substring 0 7 ".pickle") with ".pickle".
  rewrite String.eqb_refl. now rewrite substring_first.
Qed.

Lemma stem_inv : forall name st, stem name = Some st -> name = st ++ ".pickle".
Proof.
  intros name st H. unfold stem in H.
  destruct (String.eqb_spec (substring (String.length name - 7) 7 name) ".pickle") as [E|E];
    [|discriminate].
  inversion H; subst; clear H. rewrite <- E. symmetry. apply substring_split. lia.
Qed.

Lemma numbered_inv : forall name st k, numbered name = Some (st, k) ->
  name = st ++ ".pickle" /\ int_of_str st = Some k.
Proof.
  intros name st k H. unfold numbered in H. destruct (stem name) as [t|] eqn:E; [|discriminate].
  apply stem_inv in E. destruct (int_of_str t) as [j|] eqn:F; [|discriminate].
  inversion H; subst. auto.
Qed.

Lemma numbered_str : forall k, numbered (str_of_N k ++ ".pickle") = Some (str_of_N k, k).
Proof. intro k. unfold numbered. now rewrite stem_ok, int_str. Qed.

(** * Listings *)
Lemma child_iff : forall p q n, child p q = Some n <-> q = (p ++ [n])%list.
Proof.
  induction p as [|x p IH]; intros q n; cbn.
  - destruct q as [|y [|z q]]; cbn; split; intro H; inversion H; reflexivity.
  - destruct q as [|y q]; [split; discriminate|].
    destruct (String.eqb_spec x y) as [->|E].
    + rewrite IH. split; intro H; [now subst|inversion H; reflexivity].
    + split; intro H; [discriminate|]. inversion H; congruence.
Qed.

Lemma children_in : forall s p n, In n (children s p) <-> lookup s (p ++ [n])%list <> None.
Proof.
  intros s p n. unfold children. rewrite in_flat_map. split.
  - intros ([q m] & Hi & Hn). cbn in Hn. destruct (child p q) as [n'|] eqn:E; [|contradiction].
    destruct Hn as [->|[]]. apply child_iff in E. subst. apply in_lookup.
    apply in_map_iff. exists ((p ++ [n])%list, m). auto.
  - intro H. destruct (lookup s (p ++ [n])%list) as [m|] eqn:E; [|congruence].
    apply lookup_in in E. eexists; split; [exact E|]. cbn.
    rewrite (proj2 (child_iff p _ n) eq_refl). now left.
Qed.

Lemma children_nodup : forall s p, NoDup (map fst s) -> NoDup (children s p).
Proof.
  induction s as [|[q m] s IH]; intros p H; cbn; [constructor|].
  cbn in H. inversion H as [|x l Hn Hd]; subst.
  destruct (child p q) as [n|] eqn:E; cbn; [|now apply IH].
  constructor; [|now apply IH]. intro K. apply children_in in K.
  apply child_iff in E. subst q. apply Hn.
  destruct (lookup s (p ++ [n])%list) as [m'|] eqn:L; [|congruence].
  apply lookup_in in L. apply in_map_iff. exists ((p ++ [n])%list, m'). auto.
Qed.

Lemma sorted_nodup : forall (l : list string), NoDup l -> NoDup (sort_by str_leb l).
Proof. intros l H. eapply Permutation_NoDup; [apply sort_by_perm|exact H]. Qed.

Section Ext.
  Variable R : Type.
  Variable unpickle : string -> option R.

  Notation item := (item R).
  Notation load := (load R unpickle).

  Lemma load_in_tree : forall s dir name, tree s -> dir <> [] -> lookup s dir = Some Dir ->
    load s dir name =
    match lookup s (result_path dir name) with
    | None => Bad FileNotFound
    | Some Dir => Bad IsADirectory
    | Some (File b) => match unpickle b with Some r => Good r | None => Bad BadPickle end
    end.
  Proof.
    intros s dir name T Hd Hl. unfold FsModel.load, load_path, read.
    rewrite removelast_result.
    destruct (existsb (is_file s) (prefixes dir)) eqn:E.
    - exfalso. apply existsb_exists in E. destruct E as (q & Hq & Ef). unfold is_file in Ef.
      destruct (list_eq_dec string_dec q dir) as [->|Hne]; [rewrite Hl in Ef; discriminate|].
      rewrite (tr_parents _ T _ _ _ Hq Hne Hl) in Ef. discriminate.
    - destruct (lookup s (result_path dir name)) as [[|b]|]; reflexivity.
  Qed.

  (** What one listed name contributes. *)
  Definition gives (s : fs) (dir : path) (run : nat) (name : string) : list item :=
    match numbered name with
    | Some (st, k) =>
        match load s dir (str_of_N k) with
        | Good r => [{| i_name := st; i_run := run; i_result := r |}]
        | Bad _ => []
        end
    | None => []
    end.

  Lemma collect_ok : forall s dir run names,
    (forall name st k, In name names -> numbered name = Some (st, k) ->
       (exists r, load s dir (str_of_N k) = Good r) \/
       load s dir (str_of_N k) = Bad IsADirectory) ->
    collect R unpickle s dir run names = Good (flat_map (gives s dir run) names).
  Proof.
    intros s dir run names. induction names as [|n names IH]; intro H; [reflexivity|].
    cbn [collect flat_map]. unfold gives at 1.
    assert (IHn := IH (fun name st k Hi => H name st k (or_intror Hi))).
    destruct (numbered n) as [[st k]|] eqn:E; [|exact IHn].
    destruct (H n st k (or_introl eq_refl) E) as [[r Hr]|Hr]; rewrite Hr.
    - rewrite IHn. reflexivity.
    - exact IHn.
  Qed.

  Definition numbers (k : N) (x : item) : bool := (item_number R x =? k)%N.

  Lemma gives_number : forall s dir run name x k, In x (gives s dir run name) ->
    numbers k x = true -> exists st, numbered name = Some (st, k) /\ i_name R x = st.
  Proof.
    intros s dir run name x k H Hk. unfold gives in H.
    destruct (numbered name) as [[st j]|] eqn:E; [|contradiction].
    destruct (load s dir (str_of_N j)) as [r|]; [|contradiction].
    destruct H as [<-|[]]. apply numbered_inv in E. destruct E as [E1 E2].
    unfold numbers, item_number in Hk. cbn [i_name] in Hk. rewrite E2 in Hk. apply N.eqb_eq in Hk.
    subst. exists st. auto.
  Qed.

  (** What one run contributes to number [k]. *)
  Lemma run_entry : forall s dir run k names, NoDup names ->
    (forall name st j, In name names -> numbered name = Some (st, j) ->
      name = str_of_N j ++ ".pickle") ->
    filter (numbers k) (flat_map (gives s dir run) names) =
    if in_dec string_dec (str_of_N k ++ ".pickle") names
    then gives s dir run (str_of_N k ++ ".pickle") else [].
  Proof.
    intros s dir run k names. induction names as [|n names IH]; intros Hd Hn; [reflexivity|].
    inversion Hd as [|x l Hni Hd']; subst.
    specialize (IH Hd' (fun name st j Hi => Hn name st j (or_intror Hi))).
    cbn [flat_map]. rewrite filter_app, IH. clear IH.
    destruct (string_dec n (str_of_N k ++ ".pickle")) as [->|Hne].
    - destruct (in_dec string_dec (str_of_N k ++ ".pickle") names) as [K|K]; [contradiction|].
      rewrite app_nil_r.
      destruct (in_dec string_dec (str_of_N k ++ ".pickle") ((str_of_N k ++ ".pickle")%string :: names))
        as [_|K']; [|exfalso; apply K'; now left].
      unfold gives. rewrite numbered_str.
      destruct (load s dir (str_of_N k)); cbn [filter]; [|reflexivity].
      unfold numbers, item_number. cbn [i_name filter]. now rewrite int_str, N.eqb_refl.
    - assert (F : filter (numbers k) (gives s dir run n) = []).
      { destruct (filter (numbers k) (gives s dir run n)) as [|x l] eqn:E; [reflexivity|].
        assert (Hx : In x (filter (numbers k) (gives s dir run n)))
          by (rewrite E; now left).
        apply filter_In in Hx. destruct Hx as [H1 H2].
        destruct (gives_number _ _ _ _ _ _ H1 H2) as (st & Hst & _).
        exfalso. apply Hne. apply (Hn n st k); [now left|exact Hst]. }
      rewrite F. cbn [app].
      destruct (in_dec string_dec (str_of_N k ++ ".pickle") names) as [K|K],
        (in_dec string_dec (str_of_N k ++ ".pickle") (n :: names)) as [K'|K']; auto.
      + exfalso. apply K'. now right.
      + exfalso. destruct K'; [congruence|contradiction].
  Qed.

  Lemma measured_ok : forall s base id run, tree s -> lookup s (base ++ [id])%list = Some Dir ->
    orderly unpickle s (base ++ [id])%list ->
    exists l, measured R unpickle s (base ++ [id])%list run = Good l /\
      (forall x, In x l -> i_run R x = run /\ i_name R x = str_of_N (item_number R x)) /\
      forall k, filter (numbers k) l =
        match held unpickle s base id k with
        | Some r => [{| i_name := str_of_N k; i_run := run; i_result := r |}]
        | None => []
        end.
  Proof.
    intros s base id run T Hl Ho. set (dir := (base ++ [id])%list) in *.
    assert (Hd : dir <> []) by (unfold dir; intro E; apply app_eq_nil in E; destruct E; discriminate).
    unfold measured. rewrite Hl.
    set (names := sort_by str_leb (children s dir)).
    assert (Hin : forall n, In n names <-> In n (children s dir)) by (intro n; apply sort_by_in).
    assert (Hld : forall name st k, In name names -> numbered name = Some (st, k) ->
      (exists r, load s dir (str_of_N k) = Good r) \/
      load s dir (str_of_N k) = Bad IsADirectory).
    { intros name st k Hi Hn. apply Hin in Hi. destruct (Ho name st k Hi Hn) as [E Hu].
      rewrite load_in_tree by assumption. apply children_in in Hi. rewrite E in Hi, Hu.
      unfold result_path. 
      destruct (lookup s (dir ++ [(str_of_N k ++ ".pickle")%string])%list) as [[|b]|] eqn:L;
        [now right| |congruence].
      left. specialize (Hu b eq_refl). destruct (unpickle b) as [r|]; [now exists r|congruence]. }
    rewrite collect_ok by exact Hld. eexists. split; [reflexivity|]. split.
    - intros x Hx. apply in_flat_map in Hx. destruct Hx as (n & Hi & Hx).
      unfold gives in Hx. destruct (numbered n) as [[st j]|] eqn:E; [|contradiction].
      destruct (load s dir (str_of_N j)) as [r|]; [|contradiction]. destruct Hx as [<-|[]].
      cbn [i_run i_name]. split; [reflexivity|]. destruct (Ho n st j (proj1 (Hin n) Hi) E) as [E1 _].
      apply numbered_inv in E. destruct E as [E2 E3]. rewrite E1 in E2.
      apply app_inj_r in E2. subst st. unfold item_number. cbn [i_name]. now rewrite E3.
    - intro k. rewrite run_entry.
      2: apply sorted_nodup, children_nodup, (tr_once _ T).
      2: { intros name st j Hi Hn. apply (Ho name st j); [now apply Hin|exact Hn]. }
      unfold held. fold dir.
      destruct (in_dec string_dec (str_of_N k ++ ".pickle") names) as [K|K].
      + unfold gives. rewrite numbered_str. rewrite load_in_tree by assumption.
        apply Hin in K. destruct (Ho _ _ _ K (numbered_str k)) as [_ Hu].
        fold (result_path dir (str_of_N k)) in Hu.
        destruct (lookup s (result_path dir (str_of_N k))) as [[|b]|]; try reflexivity.
        specialize (Hu b eq_refl). destruct (unpickle b); [reflexivity|congruence].
      + destruct (lookup s (result_path dir (str_of_N k))) as [[|b]|] eqn:L; try reflexivity.
        exfalso. apply K, Hin, children_in. fold (result_path dir (str_of_N k)).
        rewrite L. discriminate.
  Qed.

  Lemma all_measured_ok : forall s base, tree s -> forall ids run,
    (forall id, In id ids -> lookup s (base ++ [id])%list = Some Dir /\
                             orderly unpickle s (base ++ [id])%list) ->
    exists l, all_measured R unpickle s base run ids = Good l /\
      (forall x, In x l -> i_name R x = str_of_N (item_number R x)) /\
      forall k, map (fun x => (i_run R x, i_result R x)) (filter (numbers k) l) =
        flat_map (fun ix => match held unpickle s base (snd ix) k with
                            | Some r => [(fst ix, r)] | None => [] end) (number_from run ids).
  Proof.
    intros s base T. induction ids as [|id ids IH]; intros run H.
    - exists []. repeat split; auto. intros x [].
    - destruct (H id (or_introl eq_refl)) as [H1 H2].
      destruct (measured_ok s base id run T H1 H2) as (l & M1 & M2 & M3).
      destruct (IH (S run) (fun i Hi => H i (or_intror Hi))) as (l' & A1 & A2 & A3).
      exists (l ++ l')%list. cbn [all_measured]. rewrite M1, A1.
      split; [reflexivity|]. split.
      + intros x Hx. apply in_app_or in Hx. destruct Hx as [Hx|Hx]; [now apply M2|now apply A2].
      + intro k. rewrite filter_app, map_app, A3, M3. cbn [number_from flat_map fst snd].
        destruct (held unpickle s base id k); reflexivity.
  Qed.

  (** * Grouping *)
  Lemma group_add_spec : forall k (x : item) d, NoDup (map fst d) ->
    NoDup (map fst (group_add R k x d)) /\
    (forall j, In j (map fst (group_add R k x d)) <-> j = k \/ In j (map fst d)) /\
    (forall j l, In (j, l) (group_add R k x d) <->
      (j <> k /\ In (j, l) d) \/
      (j = k /\ ((exists l', In (k, l') d /\ l = (l' ++ [x])%list) \/
                 (~ In k (map fst d) /\ l = [x])))).
  Proof.
    intros k x. induction d as [|[k' l'] d IH]; intro H; cbn.
    - split; [repeat constructor; auto|]. split.
      + intro j. intuition.
      + intros j l. split.
        * intros [E|[]]. inversion E; subst. right. split; [reflexivity|]. right. auto.
        * intros [[_ []]|[-> [(l' & [] & _)|[_ ->]]]]. now left.
    - cbn in H. inversion H as [|y z Hn Hd]; subst. specialize (IH Hd).
      destruct IH as (I1 & I2 & I3).
      destruct (N.eqb_spec k' k) as [->|Hne]; cbn.
      + split; [now constructor|]. split; [intro j; intuition|].
        intros j l. split.
        * intros [E|E].
          -- inversion E; subst. right. split; [reflexivity|]. left. exists l'. auto.
          -- left. split; [|auto]. intros ->. apply Hn. apply in_map_iff. now exists (k, l).
        * intros [[E1 [E2|E2]]|[-> [(l2 & [E2|E2] & ->)|[E2 _]]]].
          -- inversion E2; congruence.
          -- now right.
          -- inversion E2; subst. now left.
          -- exfalso. apply Hn. apply in_map_iff. now exists (k, l2).
          -- exfalso. apply E2. now left.
      + split; [|split].
        * constructor; [|exact I1]. rewrite I2. intros [E|E]; [congruence|contradiction].
        * intro j. rewrite I2. intuition.
        * intros j l. rewrite I3. split.
          -- intros [E|[[E1 E2]|[-> [(l2 & E2 & ->)|[E2 ->]]]]].
             ++ inversion E; subst. left. auto.
             ++ left. auto.
             ++ right. split; [reflexivity|]. left. exists l2. auto.
             ++ right. split; [reflexivity|]. right. split; [|reflexivity].
                intros [K|K]; [congruence|contradiction].
          -- intros [[E1 [E2|E2]]|[-> [(l2 & [E2|E2] & ->)|[E2 ->]]]].
             ++ inversion E2; subst. now left.
             ++ right. left. auto.
             ++ inversion E2; congruence.
             ++ right. right. split; [reflexivity|]. left. exists l2. auto.
             ++ right. right. split; [reflexivity|]. right. split; [|reflexivity].
                intro K. apply E2. now right.
  Qed.

  Lemma group_spec : forall l,
    NoDup (map fst (group R l)) /\
    (forall k, In k (map fst (group R l)) <-> filter (numbers k) l <> []) /\
    (forall k e, In (k, e) (group R l) -> e = filter (numbers k) l).
  Proof.
    intro l. induction l as [|x l IH] using rev_ind.
    - unfold group. cbn. split; [constructor|]. split; [|intros k e []].
      intro k. split; [intros []|congruence].
    - unfold group in *. rewrite fold_left_app. cbn [fold_left].
      set (d := fold_left (fun d y => group_add R (item_number R y) y d) l []) in *.
      destruct IH as (I1 & I2 & I3).
      destruct (group_add_spec (item_number R x) x d I1) as (G1 & G2 & G3).
      split; [exact G1|]. split.
      + intro k. rewrite G2, I2, filter_app. cbn [filter]. unfold numbers at 3.
        destruct (N.eqb_spec (item_number R x) k) as [E|E].
        * split; [intros _ K; apply app_eq_nil in K; destruct K; discriminate|auto].
        * rewrite app_nil_r. split; [intros [K|K]; [congruence|exact K]|auto].
      + intros k e He. apply G3 in He. rewrite filter_app. cbn [filter]. unfold numbers at 2.
        destruct He as [[E1 E2]|[-> [(l' & E2 & ->)|[E2 ->]]]].
        * destruct (N.eqb_spec (item_number R x) k); [congruence|]. rewrite app_nil_r. auto.
        * rewrite N.eqb_refl. f_equal. auto.
        * rewrite N.eqb_refl. rewrite I2 in E2.
          destruct (filter (numbers (item_number R x)) l); [reflexivity|].
          exfalso. apply E2. discriminate.
  Qed.

  Lemma entry_leb_total : forall a b, entry_leb R a b = true \/ entry_leb R b a = true.
  Proof. intros a b. unfold entry_leb. rewrite !N.leb_le. lia. Qed.

  Lemma entry_leb_trans : forall a b c, entry_leb R a b = true -> entry_leb R b c = true ->
    entry_leb R a c = true.
  Proof. intros a b c. unfold entry_leb. rewrite !N.leb_le. lia. Qed.

  Lemma strictly_sorted : forall d : list (N * list item), NoDup (map fst d) ->
    StronglySorted (le_by (entry_leb R)) d -> StronglySorted N.lt (map fst d).
  Proof.
    intros d H S. induction S as [|x d S IH Hx]; cbn in *; [constructor|].
    inversion H as [|y z Hn Hd]; subst. constructor; [now apply IH|].
    apply Forall_forall. intros k Hk. apply in_map_iff in Hk. destruct Hk as (e & <- & He).
    rewrite Forall_forall in Hx. specialize (Hx e He). unfold le_by, entry_leb in Hx.
    apply N.leb_le in Hx. assert (fst x <> fst e); [|lia].
    intro E. apply Hn. rewrite E. now apply in_map.
  Qed.

  Lemma map_nil_iff : forall (A B : Type) (f : A -> B) l, map f l = [] <-> l = [].
  Proof. intros A B f [|x l]; cbn; split; congruence. Qed.

  Lemma number_from_in : forall ids run id, In id ids -> exists i, In (i, id) (number_from run ids).
  Proof.
    induction ids as [|x ids IH]; intros run id H; [contradiction|]. destruct H as [->|H].
    - exists run. now left.
    - destruct (IH (S run) id H) as (i & Hi). exists i. now right.
  Qed.

  Lemma number_from_snd : forall ids run, map snd (number_from run ids) = ids.
  Proof. induction ids as [|x ids IH]; intro run; cbn; [reflexivity|now rewrite IH]. Qed.

  Lemma extract_ok : forall s root problem algo,
    let base := [root; problem; algo] in
    let ids := each_run (children s base) in
    tree s -> lookup s base = Some Dir ->
    (forall id, In id ids -> lookup s (base ++ [id])%list = Some Dir /\
                             orderly unpickle s (base ++ [id])%list) ->
    exists groups, extract R unpickle s root problem algo = Good groups /\
      StronglySorted N.lt (map fst groups) /\
      (forall k, In k (map fst groups) <->
         exists id, In id ids /\ held unpickle s base id k <> None) /\
      (forall k e, In (k, e) groups ->
         map (fun x => (i_run R x, i_result R x)) e = entry unpickle s base ids k /\
         forall x, In x e -> i_name R x = str_of_N k).
  Proof.
    intros s root problem algo base ids T Hb Hids.
    destruct (all_measured_ok s base T ids 0 Hids) as (l & A1 & A2 & A3).
    destruct (group_spec l) as (G1 & G2 & G3).
    exists (sort_by (entry_leb R) (group R l)). split; [|split; [|split]].
    - unfold extract. fold base. rewrite Hb. fold ids. now rewrite A1.
    - apply strictly_sorted.
      + eapply Permutation_NoDup; [|exact G1]. apply Permutation_map, sort_by_perm.
      + apply sort_by_sorted; [apply entry_leb_total|apply entry_leb_trans].
    - intro k. assert (E : In k (map fst (sort_by (entry_leb R) (group R l))) <->
        In k (map fst (group R l))).
      { rewrite !in_map_iff. split; intros (e & H1 & H2); exists e; split; auto;
          now apply (sort_by_in (entry_leb R)). }
      rewrite E, G2. rewrite <- (map_nil_iff _ _ (fun x => (i_run R x, i_result R x))).
      rewrite A3. split.
      + intro H. destruct (flat_map _ _) as [|y m] eqn:F; [congruence|].
        assert (Hy : In y (y :: m)) by now left. rewrite <- F in Hy.
        apply in_flat_map in Hy. destruct Hy as ([i id] & Hi & Hy). cbn in Hy.
        exists id. split.
        * rewrite <- (number_from_snd ids 0). apply in_map_iff. exists (i, id). auto.
        * intro N. rewrite N in Hy. contradiction.
      + intros (id & Hi & Hh) F. destruct (number_from_in ids 0 id Hi) as (i & Hii).
        destruct (held unpickle s base id k) as [r|] eqn:Eh; [|congruence].
        assert (In (i, r) []); [|contradiction]. rewrite <- F.
        apply in_flat_map. exists (i, id). split; [exact Hii|]. cbn. rewrite Eh. now left.
    - intros k e He. apply (proj1 (sort_by_in (entry_leb R) _ _)) in He. apply G3 in He. subst e. split.
      + apply A3.
      + intros x Hx. apply filter_In in Hx. destruct Hx as [Hx Hk].
        rewrite (A2 x Hx). unfold numbers in Hk. apply N.eqb_eq in Hk. now rewrite Hk.
  Qed.
End Ext.
