(** Proofs about the statistics: averages, quartiles, outliers, bootstrap. *)
From Verif Require Import StatModel StatSpec SortProofs Base.
From Coq Require Import Lqa Qround Qabs.
Local Open Scope Q_scope.

(** ** Averages *)

Lemma qsum_acc xs : forall a, fold_left Qplus xs a == a + total xs.
Proof.
  induction xs as [|x xs IH]; intros a; cbn [fold_left total fold_right].
  - lra.
  - rewrite IH. unfold total. lra.
Qed.

Lemma qsum_total xs : qsum xs == total xs.
Proof. unfold qsum. rewrite qsum_acc. lra. Qed.

Lemma size_pos {A} (xs : list A) : xs <> [] -> 0 < size xs.
Proof.
  destruct xs as [|x xs]; [congruence|]. intros _. unfold size, Qlt. cbn. lia.
Qed.

Lemma size_nonneg {A} (xs : list A) : 0 <= size xs.
Proof. unfold size, Qle. cbn. lia. Qed.

Lemma average_mean xs : xs <> [] -> exists m, average xs = Fin m /\ is_mean xs m.
Proof.
  intros H. pose proof (size_pos xs H) as P. destruct xs as [|x xs]; [congruence|].
  exists (qsum (x :: xs) / qlen (x :: xs)). split; [reflexivity|].
  unfold is_mean. rewrite qsum_total. change (qlen (x :: xs)) with (size (x :: xs)).
  field. intros E. rewrite E in P. lra.
Qed.

Lemma average_fin xs m : average xs = Fin m -> xs <> [] /\ is_mean xs m.
Proof.
  intros H. assert (xs <> []) as N by (destruct xs; [discriminate|congruence]).
  split; [exact N|]. destruct (average_mean xs N) as (m' & E & M). congruence.
Qed.

Lemma is_mean_unique xs m m' : xs <> [] -> is_mean xs m -> is_mean xs m' -> m == m'.
Proof.
  unfold is_mean. intros N H H'. pose proof (size_pos xs N) as P.
  apply Qmult_inj_r with (z := size xs); [intros E; rewrite E in P; lra|]. lra.
Qed.

Lemma size_cons {A} (x : A) xs : size (x :: xs) == size xs + 1.
Proof.
  unfold size. cbn [length]. rewrite Nat2Z.inj_succ. unfold Z.succ. rewrite inject_Z_plus. reflexivity.
Qed.

Lemma total_bounds xs lo hi : (forall x, In x xs -> lo <= x <= hi) ->
  lo * size xs <= total xs <= hi * size xs.
Proof.
  induction xs as [|x xs IH]; intros H.
  - unfold size; cbn. split; rewrite Qmult_0_r; apply Qle_refl.
  - rewrite size_cons. cbn [total fold_right]. fold (total xs).
    pose proof (H x (or_introl eq_refl)) as Hx.
    destruct (IH (fun y Hy => H y (or_intror Hy))) as [A B]. split; lra.
Qed.

Lemma mean_bounds xs m lo hi : xs <> [] -> is_mean xs m ->
  (forall x, In x xs -> lo <= x <= hi) -> lo <= m <= hi.
Proof.
  intros N M H. destruct (total_bounds xs lo hi H) as [A B]. pose proof (size_pos xs N) as P.
  unfold is_mean in M. rewrite <- M in A, B.
  split; apply Qmult_le_r with (z := size xs); assumption.
Qed.

(** ** Sorting *)

Lemma Qle_bool_total x y : Qle_bool x y = true \/ Qle_bool y x = true.
Proof. rewrite !Qle_bool_iff. destruct (Qlt_le_dec x y); [left; lra|right; lra]. Qed.

Lemma Qle_bool_trans x y z : Qle_bool x y = true -> Qle_bool y z = true -> Qle_bool x z = true.
Proof. rewrite !Qle_bool_iff. lra. Qed.

Lemma Qlt_bool_iff x y : Qlt_bool x y = true <-> x < y.
Proof.
  unfold Qlt_bool. rewrite Bool.negb_true_iff. split; intros H.
  - destruct (Qlt_le_dec x y) as [L|L]; [exact L|]. apply Qle_bool_iff in L. congruence.
  - destruct (Qle_bool y x) eqn:E; [|reflexivity]. apply Qle_bool_iff in E. lra.
Qed.

Lemma Qlt_bool_false x y : Qlt_bool x y = false <-> y <= x.
Proof. unfold Qlt_bool. rewrite Bool.negb_false_iff. apply Qle_bool_iff. Qed.

Lemma Qle_bool_false x y : Qle_bool x y = false <-> y < x.
Proof. rewrite <- Qlt_bool_iff. unfold Qlt_bool. rewrite Bool.negb_true_iff. reflexivity. Qed.

Lemma sorted_data xs : StronglySorted Qle (stable_sort Qle_bool xs).
Proof.
  assert (H : StronglySorted (fun x y => Qle_bool x y = true) (stable_sort Qle_bool xs)).
  { apply (stable_sort_sorted Qle_bool (fun _ => True)).
    - intros a b _ _ E. destruct (Qle_bool_total a b); congruence.
    - intros a b c _ _ _. apply Qle_bool_trans.
    - apply Forall_forall. trivial. }
  induction H as [|x l Hs IH Hf]; constructor; [exact IH|].
  rewrite Forall_forall in *. intros y Hy. apply Qle_bool_iff. auto.
Qed.

Lemma sorted_nth a i j : StronglySorted Qle a -> (i <= j < length a)%nat -> nth i a 0 <= nth j a 0.
Proof.
  intros S H. destruct (Nat.eq_dec i j) as [->|N]; [apply Qle_refl|].
  apply (StronglySorted_nth Qle a S i j); [lia| |]; apply nth_error_nth'; lia.
Qed.

(** ** Percentiles *)

Definition vpos (n : nat) (p : Z) : Z := ((Z.of_nat n - 1) * p)%Z.
Definition idx (n : nat) (p : Z) : nat := Z.to_nat (vpos n p / 100).

Lemma percentile_unfold xs p : xs <> [] ->
  let a := stable_sort Qle_bool xs in
  let n := length xs in
  percentile xs p = Some (nth (idx n p) a 0
     + (nth (Nat.min (S (idx n p)) (n - 1)) a 0 - nth (idx n p) a 0) * ((vpos n p mod 100) # 100)).
Proof. destruct xs as [|x xs]; [congruence|]. reflexivity. Qed.

Lemma percentile_val xs p q : percentile xs p = Some q ->
  let a := stable_sort Qle_bool xs in
  let n := length xs in
  q = nth (idx n p) a 0
     + (nth (Nat.min (S (idx n p)) (n - 1)) a 0 - nth (idx n p) a 0) * ((vpos n p mod 100) # 100).
Proof.
  intros E. assert (N : xs <> []) by (destruct xs; [discriminate|congruence]).
  pose proof (percentile_unfold xs p N) as U. cbv zeta in *. congruence.
Qed.

Lemma idx_lt n p : (0 < n)%nat -> (0 <= p <= 100)%Z -> (idx n p < n)%nat.
Proof.
  intros Hn Hp. unfold idx, vpos.
  assert (0 <= (Z.of_nat n - 1) * p / 100 <= Z.of_nat n - 1)%Z; [|lia].
  split; [apply Z.div_pos; nia|]. apply Z.div_le_upper_bound; nia.
Qed.

Lemma idx_eq n p : (0 < n)%nat -> (0 <= p <= 100)%Z ->
  (vpos n p = 100 * Z.of_nat (idx n p) + vpos n p mod 100 /\ 0 <= vpos n p mod 100 < 100)%Z.
Proof.
  intros Hn Hp. unfold idx. assert (0 <= vpos n p)%Z by (unfold vpos; nia).
  rewrite Z2Nat.id by (apply Z.div_pos; lia).
  split; [apply Z.div_mod; lia|apply Z.mod_pos_bound; lia].
Qed.

Lemma frac_bounds r : (0 <= r < 100)%Z -> 0 <= r # 100 /\ (r # 100) < 1.
Proof. intros H. split; unfold Qle, Qlt; cbn; lia. Qed.

Lemma percentile_between xs p q : xs <> [] -> (0 <= p <= 100)%Z -> percentile xs p = Some q ->
  let a := stable_sort Qle_bool xs in
  nth (idx (length xs) p) a 0 <= q
  <= nth (Nat.min (S (idx (length xs) p)) (length xs - 1)) a 0.
Proof.
  intros N Hp E a. apply percentile_val in E. cbv zeta in E. subst q. fold a.
  assert (0 < length xs)%nat as L by (destruct xs; [congruence|cbn; lia]).
  pose proof (idx_lt _ p L Hp). pose proof (idx_eq _ p L Hp) as [_ R].
  apply frac_bounds in R. destruct R as [R1 R2].
  assert (nth (idx (length xs) p) a 0 <= nth (Nat.min (S (idx (length xs) p)) (length xs - 1)) a 0) as M.
  { apply sorted_nth; [apply sorted_data|]. unfold a. rewrite stable_sort_length. lia. }
  set (lo := nth (idx (length xs) p) a 0) in *. set (hi := nth (Nat.min (S (idx (length xs) p)) (length xs - 1)) a 0) in *. clearbody lo hi.
  set (g := (vpos (length xs) p mod 100) # 100) in *. clearbody g.
  assert (0 <= (hi - lo) * g) by (apply Qmult_le_0_compat; lra).
  assert (0 <= (hi - lo) * (1 - g)) by (apply Qmult_le_0_compat; lra).
  split; lra.
Qed.

Lemma percentile_mono xs p p' q q' : xs <> [] -> (0 <= p <= p')%Z -> (p' <= 100)%Z ->
  percentile xs p = Some q -> percentile xs p' = Some q' -> q <= q'.
Proof.
  intros N Hp Hp' E E'.
  assert (0 < length xs)%nat as L by (destruct xs; [congruence|cbn; lia]).
  pose proof (percentile_between xs p q N ltac:(lia) E) as [_ B]. cbv zeta in B.
  pose proof (percentile_between xs p' q' N ltac:(lia) E') as [B' _]. cbv zeta in B'.
  pose proof (idx_lt _ p L ltac:(lia)) as I. pose proof (idx_lt _ p' L ltac:(lia)) as I'.
  pose proof (idx_eq _ p L ltac:(lia)) as [F R]. pose proof (idx_eq _ p' L ltac:(lia)) as [F' R'].
  assert (vpos (length xs) p <= vpos (length xs) p')%Z as V by (unfold vpos; nia).
  assert (idx (length xs) p <= idx (length xs) p')%nat as J by lia.
  destruct (Nat.eq_dec (idx (length xs) p) (idx (length xs) p')) as [Q|Q].
  - apply percentile_val in E. apply percentile_val in E'. cbv zeta in E, E'. subst q q'.
    rewrite <- Q in *.
    assert ((vpos (length xs) p mod 100 # 100) <= (vpos (length xs) p' mod 100 # 100)) as G.
    { unfold Qle. cbn. lia. }
    set (a := stable_sort Qle_bool xs) in *.
    assert (nth (idx (length xs) p) a 0 <= nth (Nat.min (S (idx (length xs) p)) (length xs - 1)) a 0) as M.
    { apply sorted_nth; [apply sorted_data|]. unfold a. rewrite stable_sort_length. lia. }
    set (lo := nth (idx (length xs) p) a 0) in *. set (hi := nth (Nat.min (S (idx (length xs) p)) (length xs - 1)) a 0) in *. clearbody lo hi.
    set (g := (vpos (length xs) p mod 100) # 100) in *. set (g' := (vpos (length xs) p' mod 100) # 100) in *. clearbody g g'.
    assert (0 <= (hi - lo) * (g' - g)) by (apply Qmult_le_0_compat; lra). lra.
  - eapply Qle_trans; [exact B|]. eapply Qle_trans; [|exact B'].
    apply sorted_nth; [apply sorted_data|]. rewrite stable_sort_length. lia.
Qed.

Lemma inject_vpos n p : (0 < n)%nat ->
  (p # 100) * (inject_Z (Z.of_nat n) - 1) == (vpos n p # 100).
Proof.
  intros H. unfold vpos. setoid_replace 1 with (inject_Z 1) by reflexivity.
  unfold Qminus. rewrite <- inject_Z_opp, <- inject_Z_plus.
  unfold Qeq, Qmult, inject_Z. cbn [Qnum Qden]. rewrite ?Pos.mul_1_r. ring.
Qed.

Lemma percentile_quantile xs p q : (0 <= p <= 100)%Z -> percentile xs p = Some q ->
  quantile (p # 100) xs q.
Proof.
  intros Hp E. assert (N : xs <> []) by (destruct xs; [discriminate|congruence]).
  assert (0 < length xs)%nat as L by (destruct xs; [congruence|cbn; lia]).
  pose proof (idx_lt _ p L Hp) as I. pose proof (idx_eq _ p L Hp) as [F R].
  apply percentile_val in E. cbv zeta in E. subst q.
  exists (stable_sort Qle_bool xs). split; [apply stable_sort_perm|]. split; [apply sorted_data|].
  cbv zeta. unfold size. set (v := _ * (_ - _)).
  assert (Hv : v == (vpos (length xs) p # 100)) by (apply inject_vpos; exact L).
  clearbody v. set (a := stable_sort Qle_bool xs) in *.
  assert (La : length a = length xs) by (unfold a; apply stable_sort_length).
  set (j := idx (length xs) p) in *. set (r := (vpos (length xs) p mod 100)%Z) in *.
  intros i x Hx Hi. rewrite Hv in Hi.
  assert (Z.of_nat i * 100 <= vpos (length xs) p)%Z as Hi'.
  { unfold Qle, inject_Z in Hi. cbn in Hi. lia. }
  assert (forall k y, nth_error a k = Some y -> nth k a 0 = y) as Nth.
  { intros k y Hy. apply nth_error_nth. exact Hy. }
  assert (forall k y, nth_error a k = Some y -> (k < length xs)%nat) as Lt.
  { intros k y Hy. rewrite <- La. apply nth_error_Some. congruence. }
  assert (zero : forall s, r = 0%Z -> nth j a 0 + (s - nth j a 0) * (r # 100) == nth j a 0).
  { intros s ->. setoid_replace (0 # 100) with 0 by reflexivity. lra. }
  split.
  - intros Ev. rewrite Hv in Ev.
    assert (vpos (length xs) p = Z.of_nat i * 100)%Z as V.
    { unfold Qeq, inject_Z in Ev. cbn in Ev. lia. }
    assert (j = i /\ r = 0)%Z as [J R0] by lia.
    rewrite (zero _ R0). rewrite J, (Nth i x Hx). reflexivity.
  - intros y Hy Ev. rewrite Hv in Ev |- *.
    assert (vpos (length xs) p <= Z.of_nat i * 100 + 100)%Z as V.
    { setoid_replace 1 with (inject_Z 1) in Ev by reflexivity.
      rewrite <- inject_Z_plus in Ev. unfold Qle, inject_Z in Ev. cbn in Ev. lia. }
    pose proof (Lt _ _ Hy) as LS.
    assert ((j = i /\ r = vpos (length xs) p - Z.of_nat i * 100)
            \/ (j = S i /\ r = 0 /\ vpos (length xs) p = Z.of_nat i * 100 + 100))%Z as C by lia.
    destruct C as [[J Rr]|(J & Rr & V')].
    + rewrite J, (Nth i x Hx).
      replace (Nat.min (S i) (length xs - 1)) with (S i) by lia. rewrite (Nth _ _ Hy).
      assert ((r # 100) == (vpos (length xs) p # 100) - inject_Z (Z.of_nat i)) as G.
      { rewrite Rr. unfold Qeq, Qminus, Qplus, Qopp, inject_Z. cbn. lia. }
      rewrite G. ring.
    + rewrite (zero _ Rr), J, (Nth _ _ Hy), V'.
      setoid_replace ((Z.of_nat i * 100 + 100) # 100) with (inject_Z (Z.of_nat i) + 1).
      * ring.
      * unfold Qeq, Qplus, inject_Z. cbn. lia.
Qed.

(** The middle of the data lies between the quartiles. *)
Lemma middle xs q1 q3 : xs <> [] -> length xs <> 2%nat ->
  percentile xs 25 = Some q1 -> percentile xs 75 = Some q3 ->
  exists x, In x xs /\ q1 <= x <= q3.
Proof.
  intros N N2 E1 E3.
  assert (0 < length xs)%nat as L by (destruct xs; [congruence|cbn; lia]).
  pose proof (percentile_between xs 25 q1 N ltac:(lia) E1) as [_ B1]. cbv zeta in B1.
  pose proof (percentile_between xs 75 q3 N ltac:(lia) E3) as [B3 _]. cbv zeta in B3.
  pose proof (idx_lt _ 25 L ltac:(lia)) as I1. pose proof (idx_lt _ 75 L ltac:(lia)) as I3.
  pose proof (idx_eq _ 25 L ltac:(lia)) as [F1 R1]. pose proof (idx_eq _ 75 L ltac:(lia)) as [F3 R3].
  set (a := stable_sort Qle_bool xs) in *.
  assert (La : length a = length xs) by (unfold a; apply stable_sort_length).
  assert (In_a : forall i, (i < length xs)%nat -> In (nth i a 0) xs).
  { intros i Hi. apply (stable_sort_In Qle_bool). apply nth_In. fold a. lia. }
  apply percentile_val in E1. cbv zeta in E1.
  unfold vpos in *.
  destruct (Z.eq_dec ((Z.of_nat (length xs) - 1) * 25 mod 100) 0) as [Z0|Z0].
  - exists (nth (idx (length xs) 25) a 0). split; [apply In_a; lia|]. split.
    + rewrite E1. unfold vpos. rewrite Z0. fold a.
      setoid_replace (0 # 100) with 0 by reflexivity. lra.
    + eapply Qle_trans; [|exact B3]. apply sorted_nth; [apply sorted_data|]. lia.
  - exists (nth (Nat.min (S (idx (length xs) 25)) (length xs - 1)) a 0). split; [apply In_a; lia|].
    split; [exact B1|]. eapply Qle_trans; [|exact B3].
    apply sorted_nth; [apply sorted_data|]. lia.
Qed.

Lemma two xs q1 q3 : length xs = 2%nat ->
  percentile xs 25 = Some q1 -> percentile xs 75 = Some q3 ->
  forall x, In x xs -> q1 - (3 # 2) * (q3 - q1) <= x <= q3 + (3 # 2) * (q3 - q1).
Proof.
  intros L E1 E3 x Hx. assert (N : xs <> []) by (destruct xs; [discriminate|congruence]).
  apply percentile_val in E1. apply percentile_val in E3. cbv zeta in E1, E3. rewrite L in E1, E3.
  change (idx 2 25) with 0%nat in E1. change (idx 2 75) with 0%nat in E3. cbn [Nat.min Nat.sub] in E1, E3.
  change (vpos 2 25 mod 100)%Z with 25%Z in E1. change (vpos 2 75 mod 100)%Z with 75%Z in E3.
  apply (stable_sort_In Qle_bool) in Hx. pose proof (sorted_data xs) as S.
  pose proof (stable_sort_length Qle_bool xs) as La. rewrite L in La.
  destruct (stable_sort Qle_bool xs) as [|u [|w [|? ?]]]; try discriminate.
  cbn [nth] in E1, E3. subst q1 q3.
  pose proof (sorted_nth _ 0 1 S ltac:(cbn; lia)) as H. cbn [nth] in H.
  setoid_replace (25 # 100) with (1 # 4) by reflexivity.
  setoid_replace (75 # 100) with (3 # 4) by reflexivity.
  destruct Hx as [<-|[<-|[]]]; split; lra.
Qed.
