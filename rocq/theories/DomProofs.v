(** Proofs about dominance and the non-dominated filters. *)
From Verif Require Import Spec Base DomModel.
Local Open Scope Z_scope.

Notation wle := nsga_dominates_weak.

Lemma ndir_cases i j :
  (i < j /\ ndir i j = 1) \/ (i = j /\ ndir i j = 0) \/ (j < i /\ ndir i j = -1).
Proof.
  unfold ndir. destruct (Z.leb_spec i j), (Z.ltb_spec i j); simpl; lia.
Qed.

Lemma cmp_loop_one xs ys : cmp_loop 1 xs ys = if wle xs ys then 1 else 0.
Proof.
  revert ys; induction xs as [|x xs IH]; intros [|y ys]; cbn [cmp_loop wle]; try reflexivity.
  destruct (ndir_cases x y) as [[H ->]|[[H ->]|[H ->]]]; simpl;
    destruct (Z.leb_spec x y); try lia; simpl; auto.
Qed.

Lemma cmp_loop_mone xs ys : cmp_loop (-1) xs ys = if wle ys xs then -1 else 0.
Proof.
  revert ys; induction xs as [|x xs IH]; intros [|y ys]; cbn [cmp_loop wle]; try reflexivity.
  destruct (ndir_cases x y) as [[H ->]|[[H ->]|[H ->]]]; simpl;
    destruct (Z.leb_spec y x); try lia; simpl; auto.
Qed.

Lemma domination_cmp_wle xs ys :
  domination_cmp xs ys =
  if wle xs ys then (if wle ys xs then 0 else 1) else (if wle ys xs then -1 else 0).
Proof.
  unfold domination_cmp.
  revert ys; induction xs as [|x xs IH]; intros [|y ys]; cbn [cmp_loop wle]; try reflexivity.
  destruct (ndir_cases x y) as [[H ->]|[[H ->]|[H ->]]]; simpl;
    destruct (Z.leb_spec x y), (Z.leb_spec y x); try lia; simpl; auto using cmp_loop_one, cmp_loop_mone.
Qed.

Lemma dominates_nsga xs ys : dominates xs ys = nsga_dominates xs ys.
Proof.
  unfold dominates, nsga_dominates. rewrite domination_cmp_wle.
  destruct (wle xs ys), (wle ys xs); reflexivity.
Qed.

Lemma wle_spec xs ys : length xs = length ys -> (wle xs ys = true <-> no_worse xs ys).
Proof.
  unfold no_worse.
  revert ys; induction xs as [|x xs IH]; intros [|y ys] Hl; simpl in *; try discriminate.
  - split; constructor.
  - rewrite andb_true_iff, Z.leb_le, IH by lia. split.
    + intros [H1 H2]. constructor; assumption.
    + intros H. inversion H; subst. auto.
Qed.

Lemma wle_false_spec xs ys :
  length xs = length ys -> (wle ys xs = false <-> better_somewhere xs ys).
Proof.
  unfold better_somewhere.
  revert ys; induction xs as [|x xs IH]; intros [|y ys] Hl; simpl in *; try discriminate.
  - split; [discriminate|]. intros ([|i] & a & b & H & _); discriminate H.
  - rewrite andb_false_iff, Z.leb_gt, IH by lia. split.
    + intros [H|(i & a & b & H)]; [exists 0%nat, x, y | exists (S i), a, b]; simpl; auto.
    + intros ([|i] & a & b & Ha & Hb & H); simpl in Ha, Hb.
      * left. congruence.
      * right. exists i, a, b. auto.
Qed.

Lemma dominates_spec xs ys :
  length xs = length ys -> (dominates xs ys = true <-> pareto_dom xs ys).
Proof.
  intros Hl. rewrite dominates_nsga. unfold nsga_dominates, pareto_dom.
  rewrite andb_true_iff, negb_true_iff, wle_spec, wle_false_spec by lia. reflexivity.
Qed.

Lemma dominates_false_spec xs ys :
  length xs = length ys -> (dominates xs ys = false <-> ~ pareto_dom xs ys).
Proof.
  intros Hl. rewrite <- (dominates_spec xs ys Hl).
  destruct (dominates xs ys); split; intros; congruence.
Qed.

Lemma domination_cmp_pos xs ys :
  length xs = length ys -> (domination_cmp xs ys = 1 <-> pareto_dom xs ys).
Proof.
  intros Hl. rewrite <- dominates_spec by assumption. unfold dominates.
  rewrite domination_cmp_wle. destruct (wle xs ys), (wle ys xs); simpl; intuition discriminate.
Qed.

Lemma domination_cmp_sym xs ys : domination_cmp ys xs = - domination_cmp xs ys.
Proof. rewrite !domination_cmp_wle. destruct (wle xs ys), (wle ys xs); reflexivity. Qed.

Lemma domination_cmp_neg xs ys :
  length xs = length ys -> (domination_cmp xs ys = -1 <-> pareto_dom ys xs).
Proof.
  intros Hl. rewrite <- domination_cmp_pos by lia. rewrite (domination_cmp_sym xs ys). lia.
Qed.

Lemma domination_cmp_range xs ys :
  domination_cmp xs ys = 1 \/ domination_cmp xs ys = -1 \/ domination_cmp xs ys = 0.
Proof. rewrite domination_cmp_wle. destruct (wle xs ys), (wle ys xs); auto. Qed.

Lemma no_worse_refl a : no_worse a a.
Proof. unfold no_worse. induction a; constructor; [lia|assumption]. Qed.

Lemma no_worse_trans a b c : no_worse a b -> no_worse b c -> no_worse a c.
Proof.
  unfold no_worse. intros H. revert c.
  induction H as [|x y a b Hxy H IH]; intros c Hc; inversion Hc; subst; constructor; [lia|auto].
Qed.

Lemma no_worse_length a b : no_worse a b -> length a = length b.
Proof. apply Forall2_length'. Qed.

Lemma pareto_dom_length a b : pareto_dom a b -> length a = length b.
Proof. intros [H _]. apply no_worse_length, H. Qed.

Lemma no_worse_not_better a b : no_worse a b -> ~ better_somewhere b a.
Proof.
  intros H (i & x & y & Hx & Hy & Hlt).
  apply Forall2_nth_error in H. destruct H as [_ H].
  specialize (H i y x Hy Hx). lia.
Qed.

Lemma pareto_dom_irrefl a : ~ pareto_dom a a.
Proof. intros [_ H]. eapply no_worse_not_better; [apply no_worse_refl | exact H]. Qed.

Lemma pareto_dom_asym a b : pareto_dom a b -> ~ pareto_dom b a.
Proof. intros [H _] [_ H']. eapply no_worse_not_better; eassumption. Qed.

Lemma pareto_dom_le a b c : pareto_dom a b -> no_worse b c -> pareto_dom a c.
Proof.
  intros [H1 (i & x & y & Hx & Hy & Hlt)] H2. split; [eapply no_worse_trans; eassumption|].
  pose proof (no_worse_length _ _ H2) as Hl.
  destruct (nth_error c i) as [z|] eqn:Hz.
  - exists i, x, z. split; [exact Hx|split; [exact Hz|]].
    apply Forall2_nth_error in H2. destruct H2 as [_ H2]. specialize (H2 i y z Hy Hz). lia.
  - apply nth_error_None in Hz. assert (i < length b)%nat by (apply nth_error_Some; congruence). lia.
Qed.

Lemma le_pareto_dom a b c : no_worse a b -> pareto_dom b c -> pareto_dom a c.
Proof.
  intros H1 [H2 (i & y & z & Hy & Hz & Hlt)]. split; [eapply no_worse_trans; eassumption|].
  pose proof (no_worse_length _ _ H1) as Hl.
  destruct (nth_error a i) as [x|] eqn:Hx.
  - exists i, x, z. split; [exact Hx|split; [exact Hz|]].
    apply Forall2_nth_error in H1. destruct H1 as [_ H1]. specialize (H1 i x y Hx Hy). lia.
  - apply nth_error_None in Hx. assert (i < length b)%nat by (apply nth_error_Some; congruence). lia.
Qed.

Lemma pareto_dom_trans a b c : pareto_dom a b -> pareto_dom b c -> pareto_dom a c.
Proof. intros H1 [H2 _]. eapply pareto_dom_le; eassumption. Qed.

Lemma dominates_irrefl a : dominates a a = false.
Proof. apply dominates_false_spec; [reflexivity|]. apply pareto_dom_irrefl. Qed.

Lemma dominates_trans a b c :
  length a = length b -> length b = length c ->
  dominates a b = true -> dominates b c = true -> dominates a c = true.
Proof.
  intros H1 H2. rewrite !dominates_spec by congruence. apply pareto_dom_trans.
Qed.

Lemma dominates_asym a b : dominates a b = true -> dominates b a = false.
Proof.
  rewrite !dominates_nsga. unfold nsga_dominates.
  destruct (wle a b), (wle b a); simpl; congruence.
Qed.

(** OMOPSO with eta = 0. *)
Lemma omopso_loop_zero acc self p2 :
  length self = length p2 ->
  omopso_dom_loop 0 1 acc self p2 =
  Some (wle self p2 && (acc || negb (wle p2 self))).
Proof.
  revert acc p2; induction self as [|s self IH]; intros acc [|p p2] Hl; simpl in Hl; try discriminate.
  - simpl. destruct acc; reflexivity.
  - cbn [omopso_dom_loop wle]. rewrite Z.add_0_r, !Z.mul_1_r.
    destruct (Z.ltb_spec p s), (Z.leb_spec s p); try lia; simpl; [reflexivity|].
    destruct (Z.ltb_spec s p), (Z.leb_spec p s); try lia; simpl; rewrite IH by lia.
    + destruct acc; simpl; destruct (wle self p2); reflexivity.
    + destruct acc; simpl; destruct (wle self p2), (wle p2 self); reflexivity.
Qed.

Lemma omopso_dominates_zero self p2 :
  length self = length p2 -> omopso_dominates 0 1 self p2 = Some (dominates self p2).
Proof.
  intros Hl. unfold omopso_dominates. rewrite omopso_loop_zero by assumption.
  rewrite dominates_nsga. reflexivity.
Qed.

(** ---- filter_not_dominated ---- *)
Section Filter.
  Context {A : Type} (f : A -> vec) (d : nat).

  Lemma filter_step_inner ind l kept dom :
    fold_left
      (fun '(kept, dom) nd_ind =>
         ((if negb (dominates (f ind) (f nd_ind)) then kept ++ [nd_ind] else kept),
          (if dominates (f nd_ind) (f ind) then true else dom)))
      l (kept, dom)
    = (kept ++ filter (fun nd => negb (dominates (f ind) (f nd))) l,
       dom || existsb (fun nd => dominates (f nd) (f ind)) l).
  Proof.
    revert kept dom; induction l as [|x l IH]; intros kept dom; simpl.
    - rewrite app_nil_r, orb_false_r. reflexivity.
    - rewrite IH. f_equal.
      + destruct (dominates (f ind) (f x)); simpl; [reflexivity|].
        rewrite <- app_assoc. reflexivity.
      + destruct (dominates (f x) (f ind)), dom; reflexivity.
  Qed.

  Lemma filter_step_eq nd ind :
    filter_step f nd ind =
    filter (fun x => negb (dominates (f ind) (f x))) nd ++
    (if existsb (fun x => dominates (f x) (f ind)) nd then [] else [ind]).
  Proof.
    unfold filter_step. rewrite filter_step_inner. simpl.
    destruct (existsb _ nd); simpl; [rewrite app_nil_r|]; reflexivity.
  Qed.

  Definition nd_in (l : list A) (x : A) : bool := forallb (fun y => negb (dominates (f y) (f x))) l.

  Lemma nd_in_spec l x :
    all_dim d f l -> length (f x) = d -> (nd_in l x = true <-> nondominated_in f l x).
  Proof.
    intros Hd Hx. unfold nd_in, nondominated_in. rewrite forallb_forall.
    split; intros H y Hy; specialize (H y Hy).
    - apply dominates_false_spec; [rewrite Hd; congruence|]. apply negb_true_iff, H.
    - apply negb_true_iff, dominates_false_spec; [rewrite Hd; congruence | exact H].
  Qed.

  (** every dominated member is dominated by a non-dominated one *)
  Lemma dominated_by_nd l x :
    all_dim d f l -> length (f x) = d -> nd_in l x = false ->
    exists y, In y l /\ nd_in l y = true /\ dominates (f y) (f x) = true.
  Proof.
    intros Hd Hx Hn.
    (* induction on the number of dominators *)
    remember (length (filter (fun y => dominates (f y) (f x)) l)) as n eqn:Hn'.
    revert x Hx Hn Hn'. induction n as [n IH] using lt_wf_ind. intros x Hx Hn Hn'.
    apply forallb_false_exists in Hn. destruct Hn as (y & Hy & Hdom).
    apply negb_false_iff in Hdom.
    pose proof (Hd y Hy) as Hyd.
    destruct (nd_in l y) eqn:Hndy.
    - exists y. auto.
    - destruct (IH (length (filter (fun z => dominates (f z) (f y)) l))) with (x := y)
        as (z & Hz & Hndz & Hzy); auto.
      + rewrite Hn'.
        assert (E : filter (fun z => dominates (f z) (f y)) l =
                filter (fun z => dominates (f z) (f y)) (filter (fun z => dominates (f z) (f x)) l)).
        { rewrite filter_filter. apply filter_ext_In. intros z Hz.
          destruct (dominates (f z) (f y)) eqn:Hzy; [|rewrite andb_false_r; reflexivity].
          pose proof (Hd z Hz) as Hzd.
          rewrite (dominates_trans (f z) (f y) (f x)); [reflexivity|congruence..]. }
        rewrite E. apply filter_length_lt with (x := y).
        * apply filter_In. auto.
        * apply dominates_irrefl.
      + exists z. split; [exact Hz|split; [exact Hndz|]].
        pose proof (Hd z Hz) as Hzd.
        apply dominates_trans with (f y); congruence.
  Qed.

  Lemma filter_not_dominated_prefix l :
    all_dim d f l -> filter_not_dominated f l = filter (nd_in l) l.
  Proof.
    unfold filter_not_dominated.
    induction l as [|x l IH] using rev_ind; intros Hd; [reflexivity|].
    rewrite fold_left_app. cbn [fold_left].
    assert (Hd' : all_dim d f l) by (intros y Hy; apply Hd, in_or_app; left; exact Hy).
    assert (Hx : length (f x) = d) by (apply Hd, in_or_app; right; left; reflexivity).
    rewrite IH by exact Hd'. rewrite filter_step_eq, filter_app. f_equal.
    - rewrite filter_filter. apply filter_ext_In. intros y Hy.
      unfold nd_in. rewrite forallb_app. simpl. rewrite andb_true_r. reflexivity.
    - unfold nd_in at 2. simpl. rewrite forallb_app. simpl.
      rewrite dominates_irrefl. simpl. rewrite andb_true_r.
      destruct (existsb _ (filter (nd_in l) l)) eqn:He.
      + apply existsb_exists in He. destruct He as (y & Hy & Hdy).
        apply filter_In in Hy. destruct Hy as [Hy _].
        assert (E : forallb (fun y0 => negb (dominates (f y0) (f x))) l = false).
        { apply forallb_false_exists. exists y. rewrite Hdy. auto. }
        rewrite E. reflexivity.
      + assert (E : forallb (fun y0 => negb (dominates (f y0) (f x))) l = true).
        { destruct (forallb _ l) eqn:Hf; [reflexivity|]. exfalso.
          destruct (dominated_by_nd l x Hd' Hx Hf) as (y & Hy & Hndy & Hyx).
          assert (existsb (fun x0 => dominates (f x0) (f x)) (filter (nd_in l) l) = true).
          { apply existsb_exists. exists y. split; [apply filter_In; auto|exact Hyx]. }
          congruence. }
        rewrite E. reflexivity.
  Qed.

  Lemma filter_nd_spec l (P : A -> bool) :
    all_dim d f l ->
    (forall x, In x l -> (P x = true <-> nondominated_in f l x)) ->
    filter_not_dominated f l = filter P l.
  Proof.
    intros Hd HP. rewrite filter_not_dominated_prefix by exact Hd.
    apply filter_ext_In. intros x Hx.
    pose proof (nd_in_spec l x Hd (Hd x Hx)) as H1. pose proof (HP x Hx) as H2.
    destruct (nd_in l x), (P x); try reflexivity; intuition congruence.
  Qed.

  Lemma nd_in_perm l l' x : Permutation l l' -> nd_in l x = nd_in l' x.
  Proof.
    intros HP. unfold nd_in.
    destruct (forallb _ l) eqn:E1, (forallb _ l') eqn:E2; try reflexivity.
    - rewrite forallb_forall in E1. apply forallb_false_exists in E2.
      destruct E2 as (y & Hy & E2). rewrite E1 in E2; [discriminate|].
      eapply Permutation_in; [apply Permutation_sym; eassumption | exact Hy].
    - rewrite forallb_forall in E2. apply forallb_false_exists in E1.
      destruct E1 as (y & Hy & E1). rewrite E2 in E1; [discriminate|].
      eapply Permutation_in; [eassumption | exact Hy].
  Qed.

  Lemma filter_not_dominated_perm l l' :
    all_dim d f l -> Permutation l l' ->
    Permutation (filter_not_dominated f l) (filter_not_dominated f l').
  Proof.
    intros Hd HP.
    assert (Hd' : all_dim d f l').
    { intros x Hx. apply Hd. eapply Permutation_in; [apply Permutation_sym; eassumption|exact Hx]. }
    rewrite !filter_not_dominated_prefix by assumption.
    rewrite (filter_ext_In (nd_in l) (nd_in l')) by (intros; apply nd_in_perm; assumption).
    apply filter_perm. exact HP.
  Qed.

  Lemma filter_not_dominated_idem l :
    all_dim d f l ->
    filter_not_dominated f (filter_not_dominated f l) = filter_not_dominated f l.
  Proof.
    intros Hd. rewrite (filter_not_dominated_prefix l Hd).
    rewrite filter_not_dominated_prefix.
    - apply filter_all. intros x Hx. apply filter_In in Hx. destruct Hx as [_ Hx].
      unfold nd_in in *. rewrite forallb_forall in *. intros y Hy.
      apply Hx. apply filter_In in Hy. tauto.
    - intros x Hx. apply filter_In in Hx. apply Hd. tauto.
  Qed.
End Filter.

(** ---- filter_not_dominated2 ---- *)
Lemma vec_eqb_spec a b : vec_eqb a b = true <-> a = b.
Proof. unfold vec_eqb. destruct (list_eq_dec Z.eq_dec a b); split; congruence. Qed.

Lemma dict_keys_step ks l :
  NoDup ks ->
  let r := fold_left (fun ks v => if existsb (vec_eqb v) ks then ks else ks ++ [v]) l ks in
  NoDup r /\ forall v, In v r <-> In v ks \/ In v l.
Proof.
  revert ks; induction l as [|x l IH]; intros ks Hnd; simpl.
  - split; [exact Hnd|]. intros v. tauto.
  - destruct (existsb (vec_eqb x) ks) eqn:E.
    + destruct (IH ks Hnd) as [H1 H2]. split; [exact H1|]. intros v. rewrite H2.
      apply existsb_exists in E. destruct E as (y & Hy & E). apply vec_eqb_spec in E. subst y.
      split; [tauto|]. intros [H|[<-|H]]; auto.
    + assert (Hx : ~ In x ks).
      { intros Hin. assert (existsb (vec_eqb x) ks = true); [|congruence].
        apply existsb_exists. exists x. split; [exact Hin|]. apply vec_eqb_spec. reflexivity. }
      destruct (IH (ks ++ [x])) as [H1 H2].
      { eapply Permutation_NoDup; [apply Permutation_cons_append|]. constructor; assumption. }
      split; [exact H1|]. intros v. rewrite H2, in_app_iff. simpl. tauto.
Qed.

Lemma dict_keys_spec l : NoDup (dict_keys l) /\ forall v, In v (dict_keys l) <-> In v l.
Proof.
  destruct (dict_keys_step [] l (NoDup_nil _)) as [H1 H2]. split; [exact H1|].
  intros v. unfold dict_keys. rewrite H2. simpl. tauto.
Qed.

Lemma filter_not_dominated2_spec d l :
  all_dim d id l ->
  NoDup (filter_not_dominated2 l) /\
  forall v, In v (filter_not_dominated2 l) <-> In v l /\ nondominated_in id l v.
Proof.
  intros Hd. unfold filter_not_dominated2. destruct (dict_keys_spec l) as [H1 H2]. split.
  - apply NoDup_filter, H1.
  - intros v. rewrite filter_In, H2. split; intros [Hin H]; split; auto;
      apply (nd_in_spec id d l v Hd (Hd v Hin)); exact H.
Qed.

(** ---- paretofront_layers ---- *)
Section Layers.
  Context {A : Type} (f : A -> vec).

  Lemma bump_nth j cs k :
    nth_error (bump j cs) k =
    if (k =? j)%nat then option_map S (nth_error cs k) else nth_error cs k.
  Proof.
    revert j k; induction cs as [|c cs IH]; intros j k.
    - simpl. destruct k; simpl; match goal with |- context [if ?b then _ else _] => destruct b end; reflexivity.
    - destruct j as [|j], k as [|k]; simpl; auto.
  Qed.

  Lemma bump_length j cs : length (bump j cs) = length cs.
  Proof. revert j; induction cs as [|c cs IH]; intros [|j]; simpl; auto. Qed.

  Definition pair_hits (lst : list A) (k : nat) (p : nat * nat) : bool :=
    (snd p =? k)%nat &&
    match nth_error lst (fst p), nth_error lst (snd p) with
    | Some a, Some b => dominates (f a) (f b)
    | _, _ => false
    end.

  Definition bump_all (lst : list A) (ps : list (nat * nat)) (cs : list nat) : list nat :=
    fold_left
      (fun cs '(i, j) =>
         match nth_error lst i, nth_error lst j with
         | Some a, Some b => if dominates (f a) (f b) then bump j cs else cs
         | _, _ => cs
         end) ps cs.

  Lemma bump_all_nth lst ps cs k c :
    nth_error cs k = Some c ->
    nth_error (bump_all lst ps cs) k =
      Some (c + length (filter (pair_hits lst k) ps))%nat.
  Proof.
    unfold bump_all.
    revert cs c; induction ps as [|[i j] ps IH]; intros cs c Hc; cbn [fold_left filter].
    - rewrite Hc. simpl. f_equal. lia.
    - assert (Hbump : nth_error (bump j cs) k = Some (if (k =? j)%nat then S c else c)).
      { rewrite bump_nth, Hc. destruct (k =? j)%nat; reflexivity. }
      destruct (pair_hits lst k (i, j)) eqn:E; unfold pair_hits in E; cbn [fst snd] in E;
        rewrite (Nat.eqb_sym j k) in E;
        destruct (nth_error lst i) as [a|], (nth_error lst j) as [b|];
        rewrite ?andb_false_r in E; try discriminate E; try (apply IH; exact Hc).
      + apply andb_true_iff in E. destruct E as [E1 E2]. rewrite E2, (IH _ _ Hbump), E1.
        cbn [length]. f_equal; lia.
      + destruct (dominates (f a) (f b)); [|apply IH; exact Hc].
        rewrite andb_true_r in E. rewrite (IH _ _ Hbump), E. reflexivity.
  Qed.

  Lemma bump_all_length lst ps cs : length (bump_all lst ps cs) = length cs.
  Proof.
    unfold bump_all. revert cs; induction ps as [|[i j] ps IH]; intros cs; simpl; [reflexivity|].
    destruct (nth_error lst i), (nth_error lst j); rewrite IH; try reflexivity.
    destruct (dominates _ _); [apply bump_length|reflexivity].
  Qed.

  Lemma dom_counts_length lst : length (dom_counts f lst) = length lst.
  Proof. unfold dom_counts. fold (bump_all lst (index_pairs (length lst)) (repeat 0%nat (length lst))).
    rewrite bump_all_length. apply repeat_length. Qed.

  Lemma index_pairs_In n i j : In (i, j) (index_pairs n) <-> (i < n /\ j < n /\ i <> j)%nat.
  Proof.
    unfold index_pairs. rewrite filter_In, in_prod_iff, !in_seq. simpl.
    rewrite negb_true_iff, Nat.eqb_neq. lia.
  Qed.

  Lemma dom_counts_zero lst k b c :
    nth_error lst k = Some b -> nth_error (dom_counts f lst) k = Some c ->
    (c =? 0)%nat = nd_in f lst b.
  Proof.
    intros Hb Hc. unfold dom_counts in Hc.
    fold (bump_all lst (index_pairs (length lst)) (repeat 0%nat (length lst))) in Hc.
    assert (Hk : (k < length lst)%nat) by (apply nth_error_Some; congruence).
    rewrite (bump_all_nth _ _ _ _ 0%nat) in Hc by (apply nth_error_repeat; exact Hk).
    injection Hc as <-. simpl.
    destruct (filter (pair_hits lst k) (index_pairs (length lst))) as [|[i j] r] eqn:E; simpl; symmetry.
    - unfold nd_in. apply forallb_forall. intros y Hy. apply negb_true_iff.
      apply In_nth_error in Hy. destruct Hy as [i Hi].
      destruct (Nat.eq_dec i k) as [->|Hik].
      { rewrite Hb in Hi. injection Hi as ->. apply dominates_irrefl. }
      assert (Hil : (i < length lst)%nat) by (apply nth_error_Some; congruence).
      destruct (dominates (f y) (f b)) eqn:Hd; [|reflexivity].
      assert (Hin : In (i, k) (filter (pair_hits lst k) (index_pairs (length lst)))).
      { apply filter_In. split; [apply index_pairs_In; auto|].
        unfold pair_hits. simpl. rewrite Nat.eqb_refl, Hi, Hb. exact Hd. }
      rewrite E in Hin. contradiction.
    - assert (Hin : In (i, j) (filter (pair_hits lst k) (index_pairs (length lst))))
        by (rewrite E; left; reflexivity).
      apply filter_In in Hin. destruct Hin as [_ Hin]. unfold pair_hits in Hin. simpl in Hin.
      apply andb_true_iff in Hin. destruct Hin as [Hj Hin]. apply Nat.eqb_eq in Hj. subst j.
      rewrite Hb in Hin. destruct (nth_error lst i) as [a|] eqn:Ha; [|discriminate].
      apply forallb_false_exists. exists a. split; [eapply nth_error_In; eassumption|].
      rewrite Hin. reflexivity.
  Qed.

  Lemma combine_filter (g : nat -> bool) (P : A -> bool) lst cs :
    length lst = length cs ->
    (forall k b c, nth_error lst k = Some b -> nth_error cs k = Some c -> g c = P b) ->
    map fst (filter (fun p => g (snd p)) (combine lst cs)) = filter P lst.
  Proof.
    revert cs; induction lst as [|x lst IH]; intros [|c cs] Hl H; simpl in *; try discriminate; [reflexivity|].
    rewrite (H 0%nat x c) by reflexivity.
    assert (E : map fst (filter (fun p => g (snd p)) (combine lst cs)) = filter P lst).
    { apply IH; [lia|]. intros k b c' Hb Hc. apply (H (S k)); assumption. }
    destruct (P x); simpl; rewrite E; reflexivity.
  Qed.

  Lemma layer_of_eq lst : layer_of f lst = filter (nd_in f lst) lst.
  Proof.
    unfold layer_of. apply (combine_filter (fun c => (c =? 0)%nat)).
    - symmetry. apply dom_counts_length.
    - intros. eapply dom_counts_zero; eassumption.
  Qed.

  Lemma rest_of_eq lst : rest_of f lst = filter (fun x => negb (nd_in f lst x)) lst.
  Proof.
    unfold rest_of. apply (combine_filter (fun c => (0 <? c)%nat)).
    - symmetry. apply dom_counts_length.
    - intros k b c Hb Hc. rewrite <- (dom_counts_zero lst k b c Hb Hc).
      destruct c; reflexivity.
  Qed.

  Variable d : nat.

  Lemma nd_exists lst : all_dim d f lst -> lst <> [] -> exists x, In x lst /\ nd_in f lst x = true.
  Proof.
    intros Hd Hne. destruct lst as [|x lst]; [congruence|].
    destruct (nd_in f (x :: lst) x) eqn:E.
    - exists x. split; [left; reflexivity|exact E].
    - destruct (dominated_by_nd f d (x :: lst) x Hd) as (y & Hy & Hn & _); auto.
      + apply Hd. left. reflexivity.
      + exists y. auto.
  Qed.

  (** The peeling specification, computed. *)
  Inductive peel : list A -> list (list A) -> Prop :=
  | peel_nil : peel [] []
  | peel_cons lst ls :
      lst <> [] ->
      peel (filter (fun x => negb (nd_in f lst x)) lst) ls ->
      peel lst (filter (nd_in f lst) lst :: ls).

  Lemma layers_loop_peel fuel lst :
    all_dim d f lst -> (length lst <= fuel)%nat ->
    exists ls, layers_loop f fuel lst = Some ls /\ peel lst ls.
  Proof.
    revert lst; induction fuel as [|fuel IH]; intros [|x lst] Hd Hl; simpl in Hl; try lia.
    - exists []. split; [reflexivity|constructor].
    - exists []. split; [reflexivity|constructor].
    - cbn [layers_loop]. rewrite layer_of_eq, rest_of_eq.
      destruct (nd_exists (x :: lst) Hd) as (y & Hy & Hn); [discriminate|].
      destruct (IH (filter (fun z => negb (nd_in f (x :: lst) z)) (x :: lst))) as (ls & E & Hp).
      + intros z Hz. apply filter_In in Hz. apply Hd. tauto.
      + assert (length (filter (fun z => negb (nd_in f (x :: lst) z)) (x :: lst)) < length (x :: lst))%nat.
        { apply filter_length_lt with y; [exact Hy|]. rewrite Hn. reflexivity. }
        simpl length in *. lia.
      + rewrite E. eexists. split; [reflexivity|]. constructor; [discriminate|exact Hp].
  Qed.

  Lemma peel_perm lst ls : peel lst ls -> Permutation (concat ls) lst.
  Proof.
    induction 1 as [|lst ls Hne Hp IH]; simpl; [constructor|].
    eapply Permutation_trans; [apply Permutation_app_head; exact IH|].
    apply filter_partition_perm.
  Qed.

  Lemma peel_nonempty lst ls : all_dim d f lst -> peel lst ls -> Forall (fun l => l <> []) ls.
  Proof.
    intros Hd H. revert Hd. induction H as [|lst ls Hne Hp IH]; intros Hd; constructor.
    - destruct (nd_exists lst Hd Hne) as (x & Hx & Hn). intros E.
      assert (In x (filter (nd_in f lst) lst)) by (apply filter_In; auto).
      rewrite E in H. contradiction.
    - apply IH. intros z Hz. apply filter_In in Hz. apply Hd. tauto.
  Qed.

  Lemma peel_nth lst ls k layer x :
    all_dim d f lst -> peel lst ls -> nth_error ls k = Some layer -> In x layer ->
    nondominated_in f (concat (skipn k ls)) x.
  Proof.
    intros Hd H. revert k Hd. induction H as [|lst ls Hne Hp IH]; intros k Hd Hk Hx.
    - destruct k; discriminate.
    - destruct k as [|k].
      + cbn [nth_error] in Hk. injection Hk as <-. apply filter_In in Hx. destruct Hx as [Hx Hn].
        intros y Hy. cbn [skipn concat] in Hy.
        assert (Hyl : In y lst).
        { eapply Permutation_in; [apply (peel_perm lst); constructor; eassumption|]. exact Hy. }
        apply (nd_in_spec f d lst x Hd (Hd x Hx)); assumption.
      + cbn [nth_error skipn] in *. eapply IH; eauto.
        intros z Hz. apply filter_In in Hz. apply Hd. tauto.
  Qed.

  Lemma peel_dominated lst ls k l1 l2 x :
    all_dim d f lst -> peel lst ls ->
    nth_error ls k = Some l1 -> nth_error ls (S k) = Some l2 -> In x l2 ->
    exists y, In y l1 /\ pareto_dom (f y) (f x).
  Proof.
    intros Hd H. revert k Hd. induction H as [|lst ls Hne Hp IH]; intros k Hd H1 H2 Hx.
    - destruct k; discriminate.
    - destruct k as [|k].
      + cbn [nth_error] in H1, H2. injection H1 as <-.
        assert (Hin : In x (filter (fun x => negb (nd_in f lst x)) lst)).
        { eapply Permutation_in; [apply (peel_perm _ _ Hp)|]. destruct ls as [|l ls]; [discriminate|].
          injection H2 as ->. simpl. apply in_or_app. left. exact Hx. }
        apply filter_In in Hin. destruct Hin as [Hin Hn]. apply negb_true_iff in Hn.
        destruct (dominated_by_nd f d lst x Hd (Hd x Hin) Hn) as (y & Hy & Hny & Hdom).
        exists y. split; [apply filter_In; auto|].
        apply dominates_spec; [rewrite (Hd y Hy), (Hd x Hin); reflexivity|exact Hdom].
      + cbn [nth_error] in H1, H2. eapply IH; eauto.
        intros z Hz. apply filter_In in Hz. apply Hd. tauto.
  Qed.

  Lemma peel_first lst ls :
    all_dim d f lst -> peel lst ls -> lst <> [] ->
    exists l1 rest, ls = l1 :: rest /\
      forall x, In x l1 <-> In x lst /\ nondominated_in f lst x.
  Proof.
    intros Hd H Hne. inversion H as [E|lst' ls' _ Hp E]; subst; [congruence|].
    eexists _, _. split; [reflexivity|]. intros x. rewrite filter_In.
    split; intros [Hx Hn]; split; auto; apply (nd_in_spec f d lst x Hd (Hd x Hx)); assumption.
  Qed.
End Layers.

(** ---- combined statements used by DomProps.v ---- *)
Lemma domination_cmp_full xs ys :
  length xs = length ys ->
  (domination_cmp xs ys = 1 <-> pareto_dom xs ys) /\
  (domination_cmp xs ys = -1 <-> pareto_dom ys xs) /\
  (domination_cmp xs ys = 0 <-> ~ pareto_dom xs ys /\ ~ pareto_dom ys xs) /\
  domination_cmp ys xs = - domination_cmp xs ys.
Proof.
  intros Hl. pose proof (domination_cmp_pos xs ys Hl) as H1. pose proof (domination_cmp_neg xs ys Hl) as H2.
  split; [exact H1|split; [exact H2|split; [|apply domination_cmp_sym]]].
  rewrite <- H1, <- H2. pose proof (domination_cmp_range xs ys). lia.
Qed.

Lemma dominance_tests_agree a b :
  length a = length b ->
  (dominates a b = true <-> pareto_dom a b) /\
  nsga_dominates a b = dominates a b /\
  omopso_dominates 0 1 a b = Some (dominates a b).
Proof.
  intros Hl. split; [apply dominates_spec, Hl|]. split; [symmetry; apply dominates_nsga|].
  apply omopso_dominates_zero, Hl.
Qed.

Lemma paretofront_layers_correct (A : Type) (fit : A -> vec) (d : nat) (lst : list A) :
  all_dim d fit lst ->
  exists layers,
    paretofront_layers fit lst = Some layers /\
    Permutation (concat layers) lst /\
    Forall (fun layer => layer <> []) layers /\
    (forall first, nth_error layers 0 = Some first ->
       forall x, In x first <-> In x lst /\ nondominated_in fit lst x) /\
    (forall k layer x, nth_error layers k = Some layer -> In x layer ->
       nondominated_in fit (concat (skipn k layers)) x) /\
    (forall k upper lower x, nth_error layers k = Some upper ->
       nth_error layers (S k) = Some lower -> In x lower ->
       exists y, In y upper /\ pareto_dom (fit y) (fit x)).
Proof.
  intros Hd. destruct (layers_loop_peel fit d (length lst) lst Hd (le_n _)) as (ls & E & Hp).
  exists ls. split; [exact E|].
  split; [apply (peel_perm fit); exact Hp|].
  split; [eapply peel_nonempty; eassumption|].
  split.
  - intros first Hf. destruct lst as [|x0 l0].
    + inversion Hp; subst; [discriminate|congruence].
    + destruct (peel_first fit d _ _ Hd Hp) as (l1 & rest & -> & H); [discriminate|].
      cbn in Hf. injection Hf as <-. exact H.
  - split; [intros; eapply peel_nth; eassumption | intros; eapply peel_dominated; eassumption].
Qed.

Lemma filter_not_dominated_members (A : Type) (f : A -> vec) (d : nat) (l : list A) :
  all_dim d f l ->
  (forall x, In x (filter_not_dominated f l) <-> In x l /\ nondominated_in f l x) /\
  filter_not_dominated f (filter_not_dominated f l) = filter_not_dominated f l.
Proof.
  intros Hd. split; [|apply filter_not_dominated_idem with d; exact Hd].
  intros x. rewrite (filter_not_dominated_prefix f d l Hd), filter_In.
  split; intros [Hx H]; split; auto; apply (nd_in_spec f d l x Hd (Hd x Hx)); assumption.
Qed.

(** OMOPSO's test with a tolerance. *)
Lemma omopso_eta en ed : forall self p2 acc, length self = length p2 ->
  exists b, omopso_dom_loop en ed acc self p2 = Some b /\
    (b = true <-> Forall2 (fun s p => s * ed <= p * (ed + en)) self p2 /\
       (acc = true \/ exists i s p, nth_error self i = Some s /\ nth_error p2 i = Some p /\ s * ed < p * (ed + en))).
Proof.
  induction self as [|s self IH]; intros [|p p2] acc L; try discriminate; cbn [omopso_dom_loop].
  - exists acc. split; [reflexivity|]. split.
    + intros ->. split; [constructor | now left].
    + intros (_ & [H|(i & s & p & H & _)]); [exact H | destruct i; discriminate].
  - injection L as L. destruct (p * (ed + en) <? s * ed) eqn:E1.
    + apply Z.ltb_lt in E1. exists false. split; [reflexivity|]. split; [discriminate|].
      intros (F & _). inversion F; subst. lia.
    + apply Z.ltb_ge in E1. destruct (s * ed <? p * (ed + en)) eqn:E2.
      * apply Z.ltb_lt in E2. destruct (IH p2 true L) as (b & Eb & Hb). exists b. split; [exact Eb|].
        rewrite Hb. split.
        -- intros (F & _). split; [now constructor|]. right. exists 0%nat, s, p. auto.
        -- intros (F & _). inversion F; subst. auto.
      * apply Z.ltb_ge in E2. destruct (IH p2 acc L) as (b & Eb & Hb). exists b. split; [exact Eb|].
        rewrite Hb. split.
        -- intros (F & [H|(i & s' & p' & H)]); (split; [now constructor|]); [now left|].
           right. exists (S i), s', p'. exact H.
        -- intros (F & [H|(i & s' & p' & H1 & H2 & H3)]); inversion F; subst; (split; [assumption|]); [now left|].
           destruct i as [|i]; cbn in H1, H2.
           ++ injection H1 as <-. injection H2 as <-. lia.
           ++ right. exists i, s', p'. auto.
Qed.
