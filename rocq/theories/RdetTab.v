(** Proofs for C153: the table. *)
From Verif Require Import PyStr PyStrFacts StatModel StatSpec StatProofs StatBoot StatRank StatTable SortProofs Base
  CellModel CellSpec CellProofs RdetModel RdetSpec RdetProofs.
Local Open Scope nat_scope.

Definition at_cell (t : points_table) (k : bm) (dir : string) : counter :=
  get String.eqb [] (get bm_eqb [] t k) dir.
Definition tidy_table (t : points_table) : Prop :=
  NoDup (map fst t) /\ forall k dir, tidy_counter (at_cell t k dir).

Lemma str_eqb_ok a b : String.eqb a b = true <-> a = b.
Proof. apply String.eqb_eq. Qed.

Definition gain (scoring : list (bm * list (string * Q))) (k : bm) (a : string) : nat :=
  match best_func (snd k) with
  | Some larger => match award (snd k) larger (get bm_eqb [] scoring k) with Some names => occurrences names a | None => 0 end
  | None => 0
  end.

Lemma award_step t k dir names k' dir' :
  at_cell (upd bm_eqb [] t k (fun by_dir => upd String.eqb [] by_dir dir (fun c => count_all c names))) k' dir' =
  if (bm_eqb k k' && String.eqb dir dir')%bool then count_all (at_cell t k' dir') names else at_cell t k' dir'.
Proof.
  unfold at_cell. rewrite (get_upd bm_eqb [] bm_eqb_ok). destruct (bm_eqb k k'); cbn [andb]; [|reflexivity].
  rewrite (get_upd String.eqb [] str_eqb_ok). reflexivity.
Qed.

Lemma table_award_ok dir scoring keys : forall t, tidy_table t -> NoDup keys ->
  (forall k, In k keys -> exists larger names, best_func (snd k) = Some larger /\ award (snd k) larger (get bm_eqb [] scoring k) = Some names) ->
  exists t', table_award dir scoring keys t = Some t' /\ tidy_table t' /\
    (forall k, In k (map fst t') <-> In k (map fst t) \/ In k keys) /\
    (forall k dir' a, value (at_cell t' k dir') a = value (at_cell t k dir') a +
       if (String.eqb dir dir' && existsb (bm_eqb k) keys)%bool then gain scoring k a else 0).
Proof.
  induction keys as [|k0 keys IH]; intros t T N G; cbn [table_award].
  - exists t. split; [reflexivity|]. split; [exact T|]. split.
    + intros k. cbn. tauto.
    + intros. cbn [existsb]. rewrite Bool.andb_false_r. lia.
  - inversion N as [|? ? N1 N2]; subst.
    destruct (G k0 (or_introl eq_refl)) as (lg & names & B & A). rewrite B, A.
    set (t1 := upd bm_eqb [] t k0 _).
    destruct (IH t1) as (t' & E & T' & K' & V').
    + split; [apply (upd_nodup bm_eqb [] bm_eqb_ok), T|]. intros k d. unfold t1. rewrite award_step.
      destruct (_ && _)%bool; [apply count_all_spec|]; apply T.
    + exact N2.
    + intros k Hk. apply G. right. exact Hk.
    + exists t'. split; [exact E|]. split; [exact T'|]. split.
      * intros k. rewrite K'. unfold t1. rewrite (upd_keys bm_eqb [] bm_eqb_ok). cbn [In]. intuition congruence.
      * intros k dir' a. rewrite V'. unfold t1. rewrite award_step. cbn [existsb].
        destruct (bm_eqb k0 k) eqn:Ek.
        -- apply bm_eqb_ok in Ek. subst k0. replace (bm_eqb k k) with true by (symmetry; apply bm_eqb_ok; reflexivity).
           replace (existsb (bm_eqb k) keys) with false.
           2:{ symmetry. apply Bool.not_true_is_false. intros C. apply existsb_exists in C. destruct C as (y & Hy & Q).
               apply bm_eqb_ok in Q. subst y. contradiction. }
           cbn [orb andb]. rewrite Bool.andb_false_r, Bool.andb_true_r.
           destruct (String.eqb dir dir'); [|lia].
           destruct (count_all_spec names (at_cell t k dir')) as [_ V]; [apply T|]. rewrite V. unfold gain. rewrite B, A. lia.
        -- replace (bm_eqb k k0) with false; [reflexivity|]. symmetry. apply Bool.not_true_is_false. intros C.
           apply bm_eqb_ok in C. subst k0. replace (bm_eqb k k) with true in Ek; [discriminate | symmetry; apply bm_eqb_ok; reflexivity].
Qed.

(** What one problem adds. *)
Definition page_gain (b : Z) (m : string) (algos : list (string * list (Z * list (string * list Q)))) (a : string) : nat :=
  match sel is40 b m algos with
  | [] => 0
  | s => match best_func m with
         | Some larger => match award m larger s with Some names => occurrences names a | None => 0 end
         | None => 0
         end
  end.
Definition dir_gain (b : Z) (m : string) (stored : board) (a : string) : nat :=
  fold_right (fun p n => page_gain b m (snd p) a + n) 0 stored.

Lemma sel_keys ok b m algos : In (b, m) (map fst (algos_e ok (fun b m => (b, m)) algos)) <-> sel ok b m algos <> [].
Proof.
  unfold sel. rewrite in_map_iff. split.
  - intros (e & E & H) C.
    assert (X : In (snd e) (map snd (filter (fun e => bm_eqb (fst e) (b, m)) (algos_e ok (fun b m => (b, m)) algos)))).
    { apply in_map. apply filter_In. split; [exact H | apply bm_eqb_ok; exact E]. }
    rewrite C in X. destruct X.
  - intros N. destruct (filter _ _) as [|e l] eqn:E; [cbn in N; congruence|].
    assert (X : In e (filter (fun e => bm_eqb (fst e) (b, m)) (algos_e ok (fun b m => (b, m)) algos))) by (rewrite E; left; reflexivity).
    apply filter_In in X. destruct X as [X1 X2]. apply bm_eqb_ok in X2. exists e. auto.
Qed.

Lemma sel_40 b m algos : sel is40 b m algos <> [] -> b = 40%Z.
Proof.
  intros H. apply sel_keys in H. apply in_map_iff in H. destruct H as (e & E & H).
  apply in_flat_map in H. destruct H as (a & _ & H). apply in_flat_map in H. destruct H as (r & _ & H).
  unfold is40 in H. destruct (Z.eqb_spec (fst r) 40) as [Hr|]; [|destruct H].
  apply in_flat_map in H. destruct H as (it & _ & H). destruct (best_func (fst it)); [|destruct H].
  destruct H as [<-|[]]. cbn in E. injection E as <- _. exact Hr.
Qed.

Lemma scored_at_nonneg admitted b m larger tol algos l : ranked m larger tol -> scored_at admitted b m algos l ->
  (forall algo rs, In (algo, rs) algos -> forall an, In (b, an) rs -> fresh (as_result b an) /\
     forall m larger tol d x, ranked m larger tol -> has_metric (as_result b an) m d -> In x d -> (0 <= x)%Q) ->
  forall a s, In (a, s) l -> (0 <= s)%Q.
Proof.
  intros R S. induction S as [|algo rs rest l an data s Hi Ha Hm Hs S IH|algo rs rest l Ho S IH]; intros F a s' H.
  - destruct H.
  - destruct H as [E|H].
    + injection E as <- <-. destruct (F algo rs (or_introl eq_refl) an Hi) as (Fr & G).
      assert (data <> []) as N by (apply (proj2 (proj2 Fr) m); exact Hm).
      destruct (data_range data N) as (lo & hi & Hlo & _ & B).
      destruct (mean_bounds data s lo hi N Hs B) as [L _].
      apply Qle_trans with lo; [|exact L]. eapply G; eauto.
    + apply (IH (fun a' r' H' => F a' r' (or_intror H')) a s' H).
  - apply (IH (fun a' r' H' => F a' r' (or_intror H')) a s' H).
Qed.

Lemma board_scored_40 stored p algos m : tidy_board stored -> In (p, algos) stored -> best_func m <> None ->
  scored_at any_result 40 m algos (sel is40 40 m algos).
Proof.
  intros [_ T] H B. destruct (T p algos H) as [_ Ta]. apply sel_scored; [| |exact B].
  - intros algo rs Hr. destruct (Ta algo rs Hr) as [N G]. split; [exact N|]. intros b0 an Hb. apply G, Hb.
  - intros algo rs an _ _. split; [intros _; exact I | reflexivity].
Qed.

Lemma page_award stored p algos m larger tol : tidy_board stored -> In (p, algos) stored -> ranked m larger tol ->
  sel is40 40 m algos <> [] ->
  exists names, award m larger (sel is40 40 m algos) = Some names /\
    forall a, points larger tol (sel is40 40 m algos) a (occ a names).
Proof.
  intros T H R N. pose proof R as R'. apply ranked_iff in R'. destruct R' as [B _].
  pose proof (board_scored_40 stored p algos m T H ltac:(congruence)) as S.
  destruct T as [_ T]. destruct (T p algos H) as [Na Ta].
  apply award_points; [exact R | exact N | apply (scored_at_nodup _ _ _ _ _ Na S) |].
  apply (scored_at_nonneg any_result 40 m larger tol algos _ R S).
  intros algo rs Hr an Hb. apply (Ta algo rs Hr), Hb.
Qed.

Lemma dir_gain_points stored m larger tol a : tidy_board stored -> ranked m larger tol ->
  dir_points larger tol 40 m a stored (dir_gain 40 m stored a).
Proof.
  intros T R. pose proof R as R'. apply ranked_iff in R'. destruct R' as [B _].
  assert (G : forall st, (forall x, In x st -> In x stored) -> dir_points larger tol 40 m a st (dir_gain 40 m st a)).
  { induction st as [|[p algos] st IH]; intros Sub; cbn [dir_gain fold_right snd]; [constructor|].
    assert (Hp : In (p, algos) stored) by (apply Sub; left; reflexivity).
    apply dp_cons with (sel is40 40 m algos).
    - apply (board_scored_40 stored p); [exact T | exact Hp | congruence].
    - unfold page_gain. destruct (sel is40 40 m algos) as [|s l] eqn:E; [apply pt_nobody; reflexivity|].
      destruct (page_award stored p algos m larger tol T Hp R) as (names & A & P); [rewrite E; discriminate|].
      rewrite E in A, P. rewrite B, A. apply P.
    - apply IH. intros x Hx. apply Sub. right. exact Hx. }
  apply G. auto.
Qed.

Section Table.
  Variables (boot_size : nat) (randint : string * string * string * Z -> nat -> nat -> nat -> nat).
  Hypothesis boot_pos : 1 <= boot_size.
  Hypothesis draws : forall c, fair (randint c).

  Lemma table_problems_ok dir stored : tidy_board stored -> forall st, (forall x, In x st -> In x stored) ->
    forall t, tidy_table t ->
    exists t', table_problems boot_size randint dir st t = Some t' /\ tidy_table t' /\
      (forall b m, In (b, m) (map fst t') <-> In (b, m) (map fst t) \/ exists p algos, In (p, algos) st /\ sel is40 b m algos <> []) /\
      (forall b m dir' a, value (at_cell t' (b, m) dir') a =
         value (at_cell t (b, m) dir') a + if String.eqb dir dir' then dir_gain b m st a else 0).
  Proof.
    intros T st. induction st as [|[p algos] st IH]; intros Sub t Tt; cbn [table_problems].
    - exists t. split; [reflexivity|]. split; [exact Tt|]. split.
      + intros b m. split; [intros H; left; exact H | intros [H|(p & algos & [] & _)]; exact H].
      + intros. cbn. destruct (String.eqb dir dir'); lia.
    - assert (Hp : In (p, algos) stored) by (apply Sub; left; reflexivity).
      rewrite table_algos_eq; auto.
      2:{ intros algo rs b an H1 H2. destruct T as [_ T]. destruct (T p algos Hp) as [_ X]. destruct (X algo rs H1) as [_ Y]. apply (Y b an H2). }
      set (scoring := fold_left (ins bm_eqb) (algos_e is40 (fun b m => (b, m)) algos) []).
      assert (Gs : forall b m, get bm_eqb [] scoring (b, m) = sel is40 b m algos).
      { intros b m. unfold scoring. rewrite (ins_get bm_eqb bm_eqb_ok). reflexivity. }
      assert (Ks : forall b m, In (b, m) (stable_sort bm_leb (map fst scoring)) <-> sel is40 b m algos <> []).
      { intros b m. rewrite stable_sort_In. unfold scoring. rewrite (ins_keys bm_eqb bm_eqb_ok), sel_keys. cbn. tauto. }
      destruct (table_award_ok dir scoring (stable_sort bm_leb (map fst scoring)) t Tt) as (t1 & -> & T1 & K1 & V1).
      + eapply Permutation_NoDup; [apply Permutation_sym, stable_sort_perm|]. apply ins_nodup; [exact bm_eqb_ok | constructor].
      + intros [b m] Hk. apply Ks in Hk. cbn [snd]. rewrite Gs. pose proof (sel_40 _ _ _ Hk) as ->.
        destruct (sel_best _ _ _ _ Hk) as (lg & B).
        destruct (page_award stored p algos m lg (winner_tolerance m) T Hp) as (names & A & _); [apply ranked_iff; auto | exact Hk|].
        exists lg, names. auto.
      + destruct (IH (fun x Hx => Sub x (or_intror Hx)) t1 T1) as (t' & E & T' & K' & V'). exists t'. split; [exact E|]. split; [exact T'|]. split.
        * intros b m. rewrite K', K1, Ks. split.
          -- intros [[H|H]|(q & al & H1 & H2)]; [left; exact H | right; exists p, algos; split; [left; reflexivity | exact H]
               | right; exists q, al; split; [right; exact H1 | exact H2]].
          -- intros [H|(q & al & [H1|H1] & H2)]; [left; left; exact H | injection H1 as <- <-; left; right; exact H2
               | right; exists q, al; auto].
        * intros b m dir' a. rewrite V', V1. cbn [dir_gain fold_right snd]. fold (dir_gain b m st a).
          destruct (String.eqb dir dir'); cbn [andb]; [|lia].
          assert (X : (if existsb (bm_eqb (b, m)) (stable_sort bm_leb (map fst scoring)) then gain scoring (b, m) a else 0) = page_gain b m algos a).
          { destruct (existsb _ _) eqn:Ex.
            - apply existsb_exists in Ex. destruct Ex as (y & Hy & Q). apply bm_eqb_ok in Q. subst y. apply Ks in Hy.
              unfold gain, page_gain. cbn [snd]. rewrite Gs. destruct (sel is40 b m algos); [congruence | reflexivity].
            - unfold page_gain. destruct (sel is40 b m algos) eqn:Es; [reflexivity|]. exfalso.
              assert (existsb (bm_eqb (b, m)) (stable_sort bm_leb (map fst scoring)) = true); [|congruence].
              apply existsb_exists. exists (b, m). split; [apply Ks; congruence | apply bm_eqb_ok; reflexivity]. }
          rewrite X. lia.
  Qed.

  Lemma table_dirs_ok dirs names : (forall dir, In dir names -> tidy_board (contents dirs dir)) -> NoDup names -> forall t, tidy_table t ->
    exists t', table_dirs boot_size randint dirs names t = Some t' /\ tidy_table t' /\
      (forall b m, In (b, m) (map fst t') <-> In (b, m) (map fst t) \/
         exists dir p algos, In dir names /\ In (p, algos) (contents dirs dir) /\ sel is40 b m algos <> []) /\
      (forall b m dir a, value (at_cell t' (b, m) dir) a =
         value (at_cell t (b, m) dir) a + if existsb (String.eqb dir) names then dir_gain b m (contents dirs dir) a else 0).
  Proof.
    induction names as [|d names IH]; intros T N t Tt; cbn [table_dirs].
    - exists t. split; [reflexivity|]. split; [exact Tt|]. split.
      + intros b m. split; [intros H; left; exact H | intros [H|(d & p & algos & [] & _)]; exact H].
      + intros. cbn. lia.
    - inversion N as [|? ? N1 N2]; subst.
      destruct (table_problems_ok d (contents dirs d) (T d (or_introl eq_refl)) (contents dirs d) (fun x H => H) t Tt) as (t1 & -> & T1 & K1 & V1).
      destruct (IH (fun x Hx => T x (or_intror Hx)) N2 t1 T1) as (t' & E & T' & K' & V'). exists t'. split; [exact E|]. split; [exact T'|]. split.
      + intros b m. rewrite K', K1. split.
        * intros [[H|(p & al & H1 & H2)]|(d' & p & al & H0 & H1 & H2)];
            [left; exact H | right; exists d, p, al; split; [left; reflexivity | auto] | right; exists d', p, al; split; [right; exact H0 | auto]].
        * intros [H|(d' & p & al & [<-|H0] & H1 & H2)]; [left; left; exact H | left; right; exists p, al; auto | right; exists d', p, al; auto].
      + intros b m dir a. rewrite V', V1. cbn [existsb]. rewrite (String.eqb_sym dir d).
        destruct (String.eqb_spec d dir) as [->|]; cbn [orb]; [|lia].
        replace (existsb (String.eqb dir) names) with false; [lia|]. symmetry. apply Bool.not_true_is_false. intros C.
        apply existsb_exists in C. destruct C as (y & Hy & Q). apply String.eqb_eq in Q. subst y. contradiction.
  Qed.

  (** The order of the rows. *)
  Definition earlier (m m' : string) : Prop :=
    exists i j, metric_index m = Some i /\ metric_index m' = Some j /\ i < j.

  Lemma sorted_unique {A} (R : A -> A -> Prop) l : (forall x y, R x y -> R y x -> False) -> forall l',
    StronglySorted R l -> StronglySorted R l' -> (forall x, In x l <-> In x l') -> l = l'.
  Proof.
    intros Asym. induction l as [|x l IH]; intros l' S S' H.
    - destruct l' as [|y l']; [reflexivity|]. exfalso. apply (H y). left. reflexivity.
    - destruct l' as [|y l']; [exfalso; apply (H x); left; reflexivity|].
      inversion S as [|? ? S1 F1]; subst. inversion S' as [|? ? S2 F2]; subst. rewrite Forall_forall in F1, F2.
      assert (Exy : x = y).
      { destruct (proj1 (H x) (or_introl eq_refl)) as [E|Hx]; [auto|].
        destruct (proj2 (H y) (or_introl eq_refl)) as [E|Hy]; [auto|]. exfalso. apply (Asym x y); auto. }
      subst y. f_equal. apply IH; auto. intros z.
      assert (Irr : forall w, ~ R w w) by (intros w Hw; apply (Asym w w); assumption).
      split; intros Hz.
      + destruct (proj1 (H z) (or_intror Hz)) as [<-|]; [|assumption]. exfalso. apply (Irr x). apply F1. exact Hz.
      + destruct (proj2 (H z) (or_intror Hz)) as [<-|]; [|assumption]. exfalso. apply (Irr x). apply F2. exact Hz.
  Qed.

  Lemma filter_sorted {A} (R : A -> A -> Prop) f l : StronglySorted R l -> StronglySorted R (filter f l).
  Proof.
    induction 1 as [|x l S IH F]; cbn [filter]; [constructor|]. destruct (f x); [|exact IH]. constructor; [exact IH|].
    rewrite Forall_forall in *. intros y Hy. apply filter_In in Hy. apply F, Hy.
  Qed.

  Lemma sort_flat {A} (le : A -> A -> bool) l : (forall x y, In x l -> In y l -> le x y = true) -> stable_sort le l = l.
  Proof.
    induction l as [|x l IH]; intros H; [reflexivity|]. change (stable_sort le (x :: l)) with (insert_by le x (stable_sort le l)). rewrite IH by (intros; apply H; right; assumption).
    destruct l as [|y l]; [reflexivity|]. cbn [insert_by]. rewrite H; [reflexivity | left; reflexivity | right; left; reflexivity].
  Qed.

  Lemma best_in_order m : best_func m <> None -> In m table_order.
  Proof.
    intros B. destruct (best_func m) as [lg|] eqn:E; [|congruence].
    assert (R : ranked m lg (winner_tolerance m)) by (apply ranked_iff; auto).
    destruct R; cbn; tauto.
  Qed.
  Lemma order_index m : In m table_order -> exists i, metric_index m = Some i.
  Proof. intros H. cbn in H. repeat (destruct H as [<-|H]; [eexists; reflexivity|]). destruct H. Qed.
  Lemma index_inj m m' i : In m table_order -> In m' table_order -> metric_index m = Some i -> metric_index m' = Some i -> m = m'.
  Proof.
    intros H H'. cbn in H, H'.
    repeat (destruct H as [<-|H]; [repeat (destruct H' as [<-|H']; [cbn; congruence|]); destruct H'|]). destruct H.
  Qed.

  Lemma table_keys_order t : NoDup (map fst t) -> (forall b m, In (b, m) (map fst t) -> b = 40%Z /\ In m table_order) ->
    table_keys t = map (fun m => (40%Z, m)) (filter (fun m => existsb (bm_eqb (40%Z, m)) (map fst t)) table_order).
  Proof.
    intros N H. unfold table_keys.
    set (le := fun a b : bm => match metric_index (snd a), metric_index (snd b) with Some i, Some j => i <=? j | _, _ => true end).
    set (l := stable_sort le (map fst t)).
    assert (Pl : Permutation l (map fst t)) by apply stable_sort_perm.
    assert (Hl : forall b m, In (b, m) l -> b = 40%Z /\ In m table_order) by (intros b m Hb; apply H; eapply Permutation_in; [exact Pl | exact Hb]).
    rewrite sort_flat.
    2:{ intros [b m] [b' m'] H1 H2. apply Hl in H1, H2. destruct H1 as [-> _], H2 as [-> _]. reflexivity. }
    assert (El : l = map (fun m => (40%Z, m)) (map snd l)).
    { rewrite map_map. rewrite <- (map_id l) at 1. apply map_ext_in. intros [b m] Hb. destruct (Hl b m Hb) as [-> _]. reflexivity. }
    rewrite El. f_equal. apply (sorted_unique earlier).
    - intros x y (i & j & E1 & E2 & L) (i' & j' & E3 & E4 & L'). rewrite E2 in E3. rewrite E1 in E4. injection E3 as ->. injection E4 as ->. lia.
    - assert (S : StronglySorted (fun x y => le x y = true) l).
      { apply (stable_sort_sorted le (fun k => In (snd k) table_order)).
        - intros a b Ha Hb X. unfold le in *. destruct (metric_index (snd a)), (metric_index (snd b)); try discriminate.
          apply Nat.leb_gt in X. apply Nat.leb_le. lia.
        - intros a b c Ha Hb Hc X Y. unfold le in *. destruct (order_index _ Hb) as (j & Ej). rewrite Ej in *.
          destruct (metric_index (snd a)), (metric_index (snd c)); try reflexivity. apply Nat.leb_le in X, Y. apply Nat.leb_le. lia.
        - apply Forall_forall. intros [b m] Hb. apply (H b m Hb). }
      assert (Nl : NoDup l) by (eapply Permutation_NoDup; [apply Permutation_sym, Pl | exact N]).
      clearbody l. clear - Hl S Nl. induction S as [|[b m] l S IH F]; [constructor|]. cbn [map snd].
      inversion Nl as [|? ? N1 N2]; subst. constructor; [apply IH; [intros; apply Hl; right; assumption | exact N2]|].
      rewrite Forall_forall in *. intros m' Hm. apply in_map_iff in Hm. destruct Hm as ([b' m2] & <- & Hm). cbn [snd].
      specialize (F _ Hm). unfold le in F. cbn [snd] in F. destruct (Hl b m (or_introl eq_refl)) as [-> O1].
      destruct (Hl b' m2 (or_intror Hm)) as [-> O2]. destruct (order_index _ O1) as (i & Ei), (order_index _ O2) as (j & Ej).
      rewrite Ei, Ej in F. apply Nat.leb_le in F. exists i, j. split; [exact Ei|]. split; [exact Ej|].
      destruct (Nat.eq_dec i j) as [->|]; [|lia]. exfalso. apply N1. rewrite (index_inj m m2 j O1 O2 Ei Ej). exact Hm.
    - apply filter_sorted. unfold table_order, earlier.
      repeat (constructor; [|repeat (constructor; [do 2 eexists; split; [reflexivity|]; split; [reflexivity|]; lia|]); constructor]). constructor.
    - intros m. rewrite filter_In, existsb_exists, in_map_iff. split.
      + intros ([b m'] & <- & Hb). cbn [snd]. destruct (Hl b m' Hb) as [-> O]. split; [exact O|]. exists (40%Z, m'). split.
        * eapply Permutation_in; [exact Pl | exact Hb].
        * apply bm_eqb_ok. reflexivity.
      + intros (O & y & Hy & Q). apply bm_eqb_ok in Q. subst y. exists (40%Z, m). split; [reflexivity|].
        eapply Permutation_in; [apply Permutation_sym, Pl | exact Hy].
  Qed.

  Lemma rows_metrics t keys : forall prev, map r_metric (table_rows t keys prev) = map snd keys.
  Proof. induction keys as [|k keys IH]; intros prev; [reflexivity|]. cbn [table_rows map r_metric]. rewrite IH. reflexivity. Qed.
  Lemma rows_cells t keys : forall prev r, In r (table_rows t keys prev) ->
    exists k, In k keys /\ r_metric r = snd k /\ r_cells r = map (fun dir => cell (at_cell t k dir)) result_dirs.
  Proof.
    induction keys as [|k keys IH]; intros prev r H; [destruct H|]. destruct H as [<-|H].
    - exists k. split; [left; reflexivity|]. split; reflexivity.
    - destruct (IH _ _ H) as (k' & H1 & H2). exists k'. split; [right; exact H1 | exact H2].
  Qed.
  Lemma rows_plain t keys : (forall k, In k keys -> fst k = 40%Z) ->
    Forall (fun r => r_dashed r = false /\ r_label r = None) (table_rows t keys (Some 40%Z)).
  Proof.
    induction keys as [|k keys IH]; intros H; [constructor|]. cbn [table_rows]. rewrite (H k (or_introl eq_refl)).
    constructor; [split; reflexivity|]. apply IH. intros k' Hk. apply H. right. exact Hk.
  Qed.

  Lemma table_ok_all dirs : (forall dir, In dir report_dirs -> tidy_board (contents dirs dir)) ->
    exists rows, table_rank boot_size randint dirs = Some rows /\ table_report dirs rows.
  Proof.
    intros T. unfold table_rank.
    destruct (table_dirs_ok dirs result_dirs T) with (t := @nil (bm * list (string * counter))) as (t & E & [Nt Tt] & K & V).
    { unfold result_dirs. repeat (constructor; [cbn; intuition discriminate|]). constructor. }
    { split; [constructor|]. intros k dir. split; constructor. }
    unfold points_table in *. rewrite E. eexists. split; [reflexivity|].
    assert (H : forall b m, In (b, m) (map fst t) -> b = 40%Z /\ In m table_order).
    { intros b m Hk. apply K in Hk. destruct Hk as [[]|(dir & p & algos & H0 & H1 & H2)]. split; [apply (sel_40 _ _ _ H2)|].
      destruct (sel_best _ _ _ _ H2) as (lg & B). apply best_in_order. congruence. }
    pose proof (table_keys_order t Nt H) as EK. rewrite EK.
    set (listed := fun m => existsb (bm_eqb (40%Z, m)) (map fst t)) in *.
    set (keys := map (fun m => (40%Z, m)) (filter listed table_order)).
    assert (K40 : forall k, In k keys -> fst k = 40%Z) by (intros k Hk; apply in_map_iff in Hk; destruct Hk as (m & <- & _); reflexivity).
    exists listed. split; [|split; [|split]].
    - intros m Hm. assert (B : exists lg, best_func m = Some lg) by (cbn in Hm; repeat (destruct Hm as [<-|Hm]; [eexists; reflexivity|]); destruct Hm).
      destruct B as (lg & B). unfold listed. rewrite existsb_exists. split.
      + intros (y & Hy & Q). apply bm_eqb_ok in Q. subst y. apply K in Hy. destruct Hy as [[]|(dir & p & algos & H0 & H1 & H2)].
        exists dir. split; [exact H0|]. exists p, algos, (sel is40 40 m algos). split; [exact H1|]. split; [|exact H2].
        apply (board_scored_40 (contents dirs dir) p); [apply T; exact H0 | exact H1 | congruence].
      + intros (dir & H0 & p & algos & scores & H1 & H2 & H3). exists (40%Z, m). split; [|apply bm_eqb_ok; reflexivity].
        apply K. right. exists dir, p, algos. split; [exact H0|]. split; [exact H1|].
        pose proof (board_scored_40 (contents dirs dir) p algos m (T dir H0) H1 ltac:(congruence)) as H4.
        pose proof (scored_at_names _ _ _ _ _ _ H2 H4) as Es. intros C. rewrite C in Es. destruct scores; [congruence | discriminate Es].
    - rewrite rows_metrics. unfold keys. rewrite map_map. apply map_id.
    - unfold keys in *. destruct (filter listed table_order) as [|m ms]; [exact I|]. cbn [map table_rows fst snd].
      split; [reflexivity|]. split; [reflexivity|]. apply rows_plain. intros k Hk. apply K40. right. exact Hk.
    - intros r lg tol Hr R. destruct (rows_cells _ _ _ _ Hr) as ([b m] & Hk & Em & Ec). pose proof (K40 _ Hk) as Hb. cbn [fst snd] in *. subst b.
      rewrite Em, Ec in *.
      assert (G : forall names, (forall d, In d names -> In d result_dirs) ->
         Forall2 (fun dir c => exists pts, (forall algo, dir_points lg tol 40 m algo (contents dirs dir) (pts algo)) /\ table_cell pts c)
           names (map (fun dir => cell (at_cell t (40%Z, m) dir)) names)).
      { induction names as [|d names IH]; intros Sub; cbn [map]; constructor; [|apply IH; intros; apply Sub; right; assumption].
        exists (value (at_cell t (40%Z, m) d)). split; [|apply cell_ok, Tt].
        intros algo. rewrite V. replace (existsb (String.eqb d) result_dirs) with true.
        2:{ symmetry. apply existsb_exists. exists d. split; [apply Sub; left; reflexivity | apply String.eqb_refl]. }
        cbn [at_cell get value plus]. apply dir_gain_points; [apply T, Sub; left; reflexivity | exact R]. }
      apply G. auto.
  Qed.
End Table.

(** ** The reports are determined by the stored results *)

Lemma Forall2_back {A B} (R : A -> B -> Prop) l l' y : Forall2 R l l' -> In y l' -> exists x, In x l /\ R x y.
Proof.
  induction 1 as [|x z l l' H F IH]; intros Hy; [destruct Hy|]. destruct Hy as [<-|Hy]; [exists x; split; [left; reflexivity | exact H]|].
  destruct (IH Hy) as (x' & H1 & H2). exists x'. split; [right; exact H1 | exact H2].
Qed.

Lemma wins_transfer stored larger b m a p algos scores scores' s : tidy_board stored -> In (p, algos) stored ->
  scored_at in_budget b m algos scores -> scored_at in_budget b m algos scores' -> wins larger scores (a, s) ->
  exists s', wins larger scores' (a, s').
Proof.
  intros T Hp S S' Wn. destruct T as [_ T]. destruct (T p algos Hp) as [_ Ta].
    assert (F2 : Forall2 (fun x y => fst x = fst y /\ (snd x == snd y)%Q) scores scores').
    { clear - S S' Ta. revert scores' S'. induction S as [|al rs rest l an data s Hi Ha Hm Hs S IH|al rs rest l Ho S IH]; intros sc S'.
      - inversion S'. constructor.
      - inversion S'; subst.
        + destruct (Ta al rs (or_introl eq_refl)) as [N G].
          constructor; [|apply IH; [intros x y Hxy; apply (Ta x y); right; exact Hxy | assumption]]. split; [reflexivity|]. cbn [snd].
          match goal with X : In (b, ?an') rs |- _ => assert (an' = an) by (clear - N Hi X; induction rs as [|[b0 a0] rs IHr]; [destruct X|];
            cbn [map fst] in N; inversion N as [|? ? N1 N2]; subst; destruct Hi as [Hi|Hi], X as [X|X];
            [congruence | injection Hi as -> ->; exfalso; apply N1, in_map_iff; exists (b, an'); auto
            | injection X as -> ->; exfalso; apply N1, in_map_iff; exists (b, an); auto | auto]); subst an' end.
          destruct (G b an Hi) as [(_ & ND & NE) _]. cbn [r_analysis as_result] in ND, NE.
          assert (U : forall d d', In (m, d) an -> In (m, d') an -> d = d').
          { clear - ND. intros d d' H1 H2. induction an as [|[x dx] an IHan]; [destruct H1|]. cbn [map fst] in ND. inversion ND as [|? ? N1 N2]; subst.
            destruct H1 as [H1|H1], H2 as [H2|H2]; [congruence | injection H1 as -> ->; exfalso; apply N1, in_map_iff; exists (m, d'); auto
              | injection H2 as -> ->; exfalso; apply N1, in_map_iff; exists (m, d); auto | auto]. }
          match goal with X : has_metric _ m ?d', Y : is_mean ?d' _ |- _ =>
            lazymatch d' with data => fail | _ => rewrite (U d' data X Hm) in Y end end.
          specialize (NE m data Hm). unfold is_mean in *.
          assert (Z0 : ~ (size data == 0)%Q) by (pose proof (size_pos data NE) as P; intros C; rewrite C in P; discriminate P).
          match goal with |- (?x == ?y)%Q => apply (Qmult_inj_r x y (size data) Z0) end. rewrite Hs. symmetry. assumption.
        + exfalso. match goal with X : forall _ _, _ -> _ -> ~ _ |- _ => eapply X; eauto end.
      - inversion S'; subst; [exfalso; eapply Ho; eauto|]. apply IH; [intros x y Hxy; apply (Ta x y); right; exact Hxy | assumption]. }
    destruct Wn as (bf & af & -> & H1 & H2). apply Forall2_app_inv_l in F2. destruct F2 as (bf' & r' & Fb & Fr & ->).
    inversion Fr as [|? [a' s'] ? af' [E1 E2] Fa]; subst. cbn [fst snd] in *. subst a'. exists s', bf', af'. split; [reflexivity|].
    assert (Bt : forall x x' y y', (x == x')%Q -> (y == y')%Q -> better larger x y -> better larger x' y').
    { intros x x' y y' Ex Ey. unfold better. destruct larger; rewrite Ex, Ey; auto. }
    split; intros y Hy; cbn [snd].
    - destruct (Forall2_back _ _ _ y Fb Hy) as (x & Hx & _ & Ex). apply (Bt s s' (snd x) (snd y)); [exact E2 | exact Ex | exact (H1 x Hx)].
    - destruct (Forall2_back _ _ _ y Fa Hy) as (x & Hx & _ & Ex). intros C. apply (H2 x Hx).
      apply (Bt (snd y) (snd x) s' s); [symmetry; exact Ex | symmetry; exact E2 | exact C].
Qed.

Lemma victories_unique stored larger b m a : tidy_board stored -> forall st n, (forall x, In x st -> In x stored) ->
  victories larger b m a st n -> forall n', victories larger b m a st n' -> n = n'.
Proof.
  intros T st n Sub V. induction V as [|p algos rest scores s n S W V IH|p algos rest scores n S W V IH]; intros n' V'.
  - inversion V'. reflexivity.
  - assert (Hp : In (p, algos) stored) by (apply Sub; left; reflexivity).
    inversion V'; subst; [f_equal; apply IH; [intros; apply Sub; right; assumption | assumption]|].
    exfalso. destruct (wins_transfer stored larger b m a p algos scores scores0 s T Hp) as (s' & W'); auto.
    match goal with X : forall s, ~ wins _ _ _ |- _ => apply (X s' W') end.
  - assert (Hp : In (p, algos) stored) by (apply Sub; left; reflexivity).
    inversion V'; subst; [|apply IH; [intros; apply Sub; right; assumption | assumption]].
    exfalso. match goal with X : wins larger ?sc (a, ?s0) |- _ => destruct (wins_transfer stored larger b m a p algos sc scores s0 T Hp) as (s' & W'); auto end.
    apply (W s' W').
Qed.
