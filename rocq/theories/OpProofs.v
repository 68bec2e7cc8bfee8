From Coq Require Import Reals List Lra Lia.
From Verif Require Import OpModel OpSpec.
Import ListNotations.
Local Open Scope R_scope.

(** ---- powers of non-negative bases ---- *)
Lemma py_pow_pw : forall x y, 0 <= x -> 0 < y -> py_pow x y = Some (pw x y).
Proof.
  intros x y Hx Hy. unfold py_pow, pw. destruct (Rlt_dec x 0); [lra|].
  destruct (Req_EM_T x 0); [|reflexivity].
  destruct (Rlt_dec y 0); [lra|]. destruct (Req_EM_T y 0); [lra|reflexivity].
Qed.

Lemma py_pow_pos : forall x y, 0 < x -> py_pow x y = Some (Rpower x y).
Proof.
  intros x y Hx. unfold py_pow. destruct (Rlt_dec x 0); [lra|].
  destruct (Req_EM_T x 0); [lra|reflexivity].
Qed.

Lemma py_div_ok : forall x y, y <> 0 -> py_div x y = Some (x / y).
Proof. intros x y H. unfold py_div. destruct (Req_EM_T y 0); [contradiction|reflexivity]. Qed.

Lemma Rpower_gt0 : forall x y, 0 < Rpower x y.
Proof. intros. unfold Rpower. apply exp_pos. Qed.

Lemma pw_ge0 : forall x y, 0 <= pw x y.
Proof. intros x y. unfold pw. destruct (Req_EM_T x 0); [lra|]. apply Rlt_le, Rpower_gt0. Qed.

Lemma pw_pos : forall x y, 0 < x -> pw x y = Rpower x y.
Proof. intros x y H. unfold pw. destruct (Req_EM_T x 0); [lra|reflexivity]. Qed.

Lemma pw_mono : forall x x' y, 0 <= x <= x' -> 0 < y -> pw x y <= pw x' y.
Proof.
  intros x x' y [H1 H2] Hy. unfold pw at 1. destruct (Req_EM_T x 0).
  - apply pw_ge0.
  - rewrite pw_pos by lra. apply Rle_Rpower_l; lra.
Qed.

Lemma pw_one : forall y, pw 1 y = 1.
Proof. intros y. rewrite pw_pos by lra. unfold Rpower. rewrite ln_1, Rmult_0_r. apply exp_0. Qed.

Lemma pw_zero : forall y, pw 0 y = 0.
Proof. intros y. unfold pw. destruct (Req_EM_T 0 0); [reflexivity|lra]. Qed.

Lemma pw_le1 : forall x y, 0 <= x <= 1 -> 0 < y -> pw x y <= 1.
Proof. intros x y H Hy. rewrite <- (pw_one y). apply pw_mono; assumption. Qed.

Lemma pw_pw : forall x a b, 0 <= x -> pw (pw x a) b = pw x (a * b).
Proof.
  intros x a b H. unfold pw at 2 3. destruct (Req_EM_T x 0).
  - apply pw_zero.
  - rewrite pw_pos by apply Rpower_gt0. apply Rpower_mult.
Qed.

Lemma pw_1r : forall x, 0 <= x -> pw x 1 = x.
Proof. intros x H. unfold pw. destruct (Req_EM_T x 0); [lra|]. apply Rpower_1; lra. Qed.

Lemma pw_inv : forall x a, 0 <= x -> 0 < a -> pw (pw x a) (1 / a) = x.
Proof.
  intros x a H Ha. rewrite pw_pw by assumption. replace (a * (1 / a)) with 1 by (field; lra). apply pw_1r; assumption.
Qed.

Lemma Rpower_neg : forall x y, 0 < x -> Rpower x (- y) * Rpower x y = 1.
Proof. intros x y H. rewrite <- Rpower_plus. replace (- y + y) with 0 by ring. apply Rpower_O; assumption. Qed.

(** smaller exponents give larger powers of a base in [0,1] *)
Lemma pw_exp_anti : forall x a b, 0 <= x <= 1 -> 0 < a <= b -> pw x b <= pw x a.
Proof.
  intros x a b Hx Hab. unfold pw. destruct (Req_EM_T x 0); [lra|].
  unfold Rpower. destruct (Rle_lt_or_eq_dec (b * ln x) (a * ln x)) as [H|H].
  - assert (L : ln x <= 0).
    { destruct (Rle_lt_or_eq_dec x 1) as [K|K]; [lra| |].
      - rewrite <- ln_1. apply Rlt_le, ln_increasing; lra.
      - subst. rewrite ln_1. lra. }
    nra.
  - apply Rlt_le, exp_increasing. exact H.
  - rewrite H. lra.
Qed.

(** ---- weighted means ---- *)

(** u^w <= 1 + w (u - 1) for 0 < w <= 1 *)
Lemma power_tangent : forall u w, 0 < u -> 0 < w <= 1 -> Rpower u w <= 1 + w * (u - 1).
Proof.
  intros u w Hu Hw.
  set (A := 1 + w * (u - 1)).
  assert (HA : 0 < A). { unfold A. nra. }
  assert (L : forall z, 0 < z -> ln z <= z - 1).
  { intros z Hz. destruct (Req_dec z 1) as [->|N]; [rewrite ln_1; lra|].
    assert (E : exp (ln z) = z) by (apply exp_ln; assumption).
    destruct (Req_dec (ln z) 0) as [E0|N0].
    - exfalso. apply N. rewrite <- E, E0. apply exp_0.
    - pose proof (exp_ineq1 (ln z) N0). lra. }
  assert (K : w * ln u <= ln A).
  { pose proof (L (u / A) (Rdiv_lt_0_compat _ _ Hu HA)) as L1.
    pose proof (L (/ A) (Rinv_0_lt_compat _ HA)) as L2.
    unfold Rdiv in L1. rewrite ln_mult, ln_Rinv in L1 by (try assumption; apply Rinv_0_lt_compat; assumption).
    rewrite ln_Rinv in L2 by assumption.
    assert (E : w * (u * / A - 1) + (1 - w) * (/ A - 1) = 0).
    { unfold A. field. fold A. lra. }
    nra. }
  unfold Rpower. rewrite <- (exp_ln A HA).
  destruct (Rle_lt_or_eq_dec _ _ K) as [K'|K'].
  - apply Rlt_le, exp_increasing. exact K'.
  - rewrite K'. lra.
Qed.

(** the weighted power mean of 1 and x grows with the exponent *)
Lemma power_mean : forall w x p q, 0 <= w <= 1 -> 0 < x -> 0 < p <= q ->
  pw (w + (1 - w) * pw x p) (1 / p) <= pw (w + (1 - w) * pw x q) (1 / q).
Proof.
  intros w x p q Hw Hx Hpq.
  rewrite !(pw_pos x) by assumption.
  pose proof (Rpower_gt0 x p) as P1. pose proof (Rpower_gt0 x q) as P2.
  set (A := w + (1 - w) * Rpower x q).
  set (th := p / q).
  assert (HA : 0 < A). { unfold A. destruct (Req_dec w 0) as [->|]; nra. }
  assert (Hth : 0 < th <= 1).
  { unfold th. split; [apply Rdiv_lt_0_compat; lra|].
    apply Rmult_le_reg_r with q; [lra|]. replace (p / q * q) with p by (field; lra). lra. }
  assert (K : w + (1 - w) * Rpower x p <= Rpower A th).
  { pose proof (power_tangent (/ A) th (Rinv_0_lt_compat _ HA) Hth) as T1.
    pose proof (power_tangent (Rpower x q / A) th (Rdiv_lt_0_compat _ _ P2 HA) Hth) as T2.
    assert (I : Rpower (/ A) th = / Rpower A th).
    { unfold Rpower. rewrite ln_Rinv by assumption. rewrite <- exp_Ropp. f_equal. ring. }
    assert (J : Rpower (Rpower x q / A) th = Rpower x p * / Rpower A th).
    { unfold Rdiv.
      rewrite <- Rpower_mult_distr by (try apply Rinv_0_lt_compat; assumption).
      rewrite I. f_equal. rewrite Rpower_mult. f_equal. unfold th. field. lra. }
    rewrite I in T1. rewrite J in T2.
    pose proof (Rpower_gt0 A th) as PA.
    assert (S : (w + (1 - w) * Rpower x p) * / Rpower A th <= 1).
    { assert (E : w * (1 + th * (/ A - 1)) + (1 - w) * (1 + th * (Rpower x q / A - 1)) = 1).
      { unfold A. field. fold A. lra. }
      assert (w * / Rpower A th <= w * (1 + th * (/ A - 1))) by (apply Rmult_le_compat_l; lra).
      assert ((1 - w) * (Rpower x p * / Rpower A th) <= (1 - w) * (1 + th * (Rpower x q / A - 1)))
        by (apply Rmult_le_compat_l; lra).
      lra. }
    apply Rmult_le_compat_r with (r := Rpower A th) in S; [|lra].
    rewrite Rmult_assoc, Rinv_l in S by lra. lra. }
  assert (B : 0 < w + (1 - w) * Rpower x p). { destruct (Req_dec w 0) as [->|]; nra. }
  replace (pw A (1 / q)) with (pw (Rpower A th) (1 / p)).
  - apply pw_mono; [lra|]. apply Rdiv_lt_0_compat; lra.
  - rewrite !pw_pos by (try apply Rpower_gt0; assumption). rewrite Rpower_mult. f_equal.
    unfold th. field. lra.
Qed.

(** ---- polynomial mutation of one gene ---- *)
Definition shrink (w x n : R) : R := 1 - pw (w + (1 - w) * pw x n) (1 / n).

Lemma mean_range : forall w p, 0 <= w <= 1 -> 0 <= p <= 1 -> p <= w + (1 - w) * p <= 1.
Proof. intros. nra. Qed.

Lemma shrink_range : forall w x n, 0 <= w <= 1 -> 0 < x <= 1 -> 0 < n -> 0 <= shrink w x n <= 1 - x.
Proof.
  intros w x n Hw Hx Hn. unfold shrink.
  assert (P : 0 <= pw x n <= 1). { split; [apply pw_ge0|apply pw_le1; lra]. }
  pose proof (mean_range w _ Hw P) as M.
  assert (N : 0 < 1 / n) by (apply Rdiv_lt_0_compat; lra).
  split.
  - pose proof (pw_le1 (w + (1 - w) * pw x n) (1 / n)). lra.
  - pose proof (pw_mono (pw x n) (w + (1 - w) * pw x n) (1 / n)) as K. rewrite pw_inv in K by lra. lra.
Qed.

Lemma shrink_anti : forall w w' x n, 0 <= w <= w' -> w' <= 1 -> 0 < x <= 1 -> 0 < n ->
  shrink w' x n <= shrink w x n.
Proof.
  intros w w' x n Hw Hw' Hx Hn. unfold shrink.
  assert (P : 0 <= pw x n <= 1). { split; [apply pw_ge0|apply pw_le1; lra]. }
  assert (N : 0 < 1 / n) by (apply Rdiv_lt_0_compat; lra).
  assert (pw (w + (1 - w) * pw x n) (1 / n) <= pw (w' + (1 - w') * pw x n) (1 / n)).
  { apply pw_mono; [|assumption]. nra. }
  lra.
Qed.

Lemma shrink_one : forall x n, shrink 1 x n = 0.
Proof. intros. unfold shrink. replace (1 + (1 - 1) * pw x n) with 1 by ring. rewrite pw_one. ring. Qed.

Lemma shrink_zero : forall x n, 0 < x -> 0 < n -> shrink 0 x n = 1 - x.
Proof.
  intros x n Hx Hn. unfold shrink. replace (0 + (1 - 0) * pw x n) with (pw x n) by ring.
  rewrite pw_inv by lra. reflexivity.
Qed.

Lemma shrink_eta : forall w x n n', 0 <= w <= 1 -> 0 < x <= 1 -> 0 < n <= n' -> shrink w x n' <= shrink w x n.
Proof.
  intros w x n n' Hw Hx Hn. unfold shrink. pose proof (power_mean w x n n' Hw (proj1 Hx) Hn). lra.
Qed.

(** the share of the range that stays on the far side of the gene *)
Definition room (eps lb ub far : R) : R := (far + eps) / (ub - lb + eps).

Lemma room_range : forall eps lb ub far, 0 < eps -> 0 <= far <= ub - lb -> 0 < room eps lb ub far <= 1.
Proof.
  intros eps lb ub far He Hf. unfold room. split; [apply Rdiv_lt_0_compat; lra|].
  apply Rmult_le_reg_r with (ub - lb + eps); [lra|].
  unfold Rdiv. rewrite Rmult_assoc, Rinv_l by lra. lra.
Qed.

Lemma room_move : forall eps lb ub far, 0 < eps -> 0 <= far <= ub - lb ->
  (1 - room eps lb ub far) * (ub - lb) <= ub - lb - far.
Proof.
  intros eps lb ub far He Hf.
  assert (E : (1 - room eps lb ub far) * (ub - lb) = (ub - lb - far) * ((ub - lb) / (ub - lb + eps))).
  { unfold room. field. lra. }
  rewrite E. assert (0 <= (ub - lb) / (ub - lb + eps) <= 1).
  { split.
    - apply Rmult_le_pos; [lra|]. apply Rlt_le, Rinv_0_lt_compat. lra.
    - apply Rmult_le_reg_r with (ub - lb + eps); [lra|]. unfold Rdiv. rewrite Rmult_assoc, Rinv_l by lra. lra. }
  nra.
Qed.

Lemma perturbed_value : forall eps eta lb ub y rnd, 0 < eps -> 0 <= eta -> lb <= y <= ub -> unit_draw rnd ->
  perturbed eps eta lb ub y rnd =
  Some (if Rle_dec rnd (1 / 2)
        then y - shrink (2 * rnd) (room eps lb ub (ub - y)) (eta + 1) * (ub - lb)
        else y + shrink (2 * (1 - rnd)) (room eps lb ub (y - lb)) (eta + 1) * (ub - lb)).
Proof.
  intros eps eta lb ub y rnd He Ht Hy Hr. red in Hr. unfold perturbed.
  rewrite !py_div_ok by lra.
  assert (N : 0 < 1 / (eta + 1)) by (apply Rdiv_lt_0_compat; lra).
  assert (P : forall x w, 0 < x <= 1 -> 0 <= w <= 1 -> 0 <= w + (1 - w) * pw x (eta + 1)).
  { intros x w Hx Hw. pose proof (pw_ge0 x (eta + 1)). nra. }
  destruct (Rle_dec rnd (1 / 2)).
  - replace (1 - (y - lb) / (ub - lb + eps)) with (room eps lb ub (ub - y)) by (unfold room; field; lra).
    assert (RR := room_range eps lb ub (ub - y) He ltac:(lra)).
    rewrite py_pow_pw by lra.
    rewrite py_pow_pw; [|apply (P _ (2 * rnd)); lra|assumption].
    unfold shrink. f_equal. ring.
  - replace (1 - (ub - y) / (ub - lb + eps)) with (room eps lb ub (y - lb)) by (unfold room; field; lra).
    assert (RR := room_range eps lb ub (y - lb) He ltac:(lra)).
    rewrite py_pow_pw by lra.
    replace (2 * (rnd - 1 / 2)) with (1 - 2 * (1 - rnd)) by field.
    rewrite py_pow_pw; [|apply (P _ (2 * (1 - rnd))); lra|assumption].
    unfold shrink. f_equal.
Qed.

(** everything the properties say about one mutated gene *)
Lemma perturbed_in_bounds : forall eps eta lb ub y rnd, 0 < eps -> 0 <= eta -> lb <= y <= ub -> unit_draw rnd ->
  exists y', perturbed eps eta lb ub y rnd = Some y' /\ lb <= y' <= ub /\
    (rnd <= 1 / 2 -> y' <= y) /\ (1 / 2 <= rnd -> y <= y').
Proof.
  intros eps eta lb ub y rnd He Ht Hy Hr. rewrite perturbed_value by assumption. eexists. split; [reflexivity|].
  red in Hr. destruct (Rle_dec rnd (1 / 2)).
  - assert (RR := room_range eps lb ub (ub - y) He ltac:(lra)).
    assert (S := shrink_range (2 * rnd) _ (eta + 1) ltac:(lra) RR ltac:(lra)).
    assert (M := room_move eps lb ub (ub - y) He ltac:(lra)).
    assert (0 <= shrink (2 * rnd) (room eps lb ub (ub - y)) (eta + 1) * (ub - lb) <= (1 - room eps lb ub (ub - y)) * (ub - lb)) by nra.
    split; [lra|]. split; [lra|]. intros Hh. replace rnd with (1 / 2) by lra.
    replace (2 * (1 / 2)) with 1 by field. rewrite shrink_one. lra.
  - assert (RR := room_range eps lb ub (y - lb) He ltac:(lra)).
    assert (S := shrink_range (2 * (1 - rnd)) _ (eta + 1) ltac:(lra) RR ltac:(lra)).
    assert (M := room_move eps lb ub (y - lb) He ltac:(lra)).
    assert (0 <= shrink (2 * (1 - rnd)) (room eps lb ub (y - lb)) (eta + 1) * (ub - lb) <= (1 - room eps lb ub (y - lb)) * (ub - lb)) by nra.
    lra.
Qed.

Lemma perturbed_monotone : forall eps eta lb ub y r r' a b, 0 < eps -> 0 <= eta -> lb <= y <= ub ->
  unit_draw r -> unit_draw r' -> r <= r' ->
  perturbed eps eta lb ub y r = Some a -> perturbed eps eta lb ub y r' = Some b -> a <= b.
Proof.
  intros eps eta lb ub y r r' a b He Ht Hy Hr Hr' L A B.
  destruct (perturbed_in_bounds eps eta lb ub y r He Ht Hy Hr) as (a' & A' & _ & Ad & Au).
  destruct (perturbed_in_bounds eps eta lb ub y r' He Ht Hy Hr') as (b' & B' & _ & Bd & Bu).
  assert (a' = a) by congruence. assert (b' = b) by congruence. subst a' b'.
  destruct (Rle_dec r (1 / 2)) as [H|H]; [destruct (Rle_dec r' (1 / 2)) as [H'|H']|].
  - rewrite perturbed_value in A, B by assumption.
    destruct (Rle_dec r (1 / 2)); [|contradiction]. destruct (Rle_dec r' (1 / 2)); [|contradiction].
    red in Hr, Hr'.
    assert (RR := room_range eps lb ub (ub - y) He ltac:(lra)).
    assert (S := shrink_anti (2 * r) (2 * r') _ (eta + 1) ltac:(lra) ltac:(lra) RR ltac:(lra)).
    injection A as <-. injection B as <-. nra.
  - specialize (Ad H). specialize (Bu ltac:(lra)). lra.
  - rewrite perturbed_value in A, B by assumption.
    destruct (Rle_dec r (1 / 2)); [contradiction|]. destruct (Rle_dec r' (1 / 2)); [lra|].
    red in Hr, Hr'.
    assert (RR := room_range eps lb ub (y - lb) He ltac:(lra)).
    assert (S := shrink_anti (2 * (1 - r')) (2 * (1 - r)) _ (eta + 1) ltac:(lra) ltac:(lra) RR ltac:(lra)).
    injection A as <-. injection B as <-. nra.
Qed.

Lemma perturbed_reach : forall eps eta lb ub y, 0 < eps -> 0 <= eta -> lb <= y <= ub ->
  (exists a, perturbed eps eta lb ub y 0 = Some a /\ lb <= a <= lb + eps) /\
  (exists b, perturbed eps eta lb ub y 1 = Some b /\ ub - eps <= b <= ub).
Proof.
  intros eps eta lb ub y He Ht Hy.
  assert (D0 : unit_draw 0) by (red; lra). assert (D1 : unit_draw 1) by (red; lra).
  assert (F : forall z, 0 <= z <= ub - lb -> 0 <= z * (eps / (ub - lb + eps)) <= eps).
  { intros z Hz. assert (0 < eps / (ub - lb + eps)) by (apply Rdiv_lt_0_compat; lra).
    split; [nra|]. apply Rmult_le_reg_r with (ub - lb + eps); [lra|].
    replace (z * (eps / (ub - lb + eps)) * (ub - lb + eps)) with (z * eps) by (field; lra). nra. }
  split.
  - rewrite perturbed_value by assumption. destruct (Rle_dec 0 (1 / 2)); [|lra].
    eexists. split; [reflexivity|]. replace (2 * 0) with 0 by ring.
    assert (RR := room_range eps lb ub (ub - y) He ltac:(lra)).
    rewrite shrink_zero by lra.
    replace (y - (1 - room eps lb ub (ub - y)) * (ub - lb)) with (lb + (y - lb) * (eps / (ub - lb + eps)))
      by (unfold room; field; lra).
    specialize (F (y - lb)). lra.
  - rewrite perturbed_value by assumption. destruct (Rle_dec 1 (1 / 2)); [lra|].
    eexists. split; [reflexivity|]. replace (2 * (1 - 1)) with 0 by ring.
    assert (RR := room_range eps lb ub (y - lb) He ltac:(lra)).
    rewrite shrink_zero by lra.
    replace (y + (1 - room eps lb ub (y - lb)) * (ub - lb)) with (ub - (ub - y) * (eps / (ub - lb + eps)))
      by (unfold room; field; lra).
    specialize (F (ub - y)). lra.
Qed.

Lemma perturbed_eta : forall eps eta eta' lb ub y r a b, 0 < eps -> 0 <= eta <= eta' -> lb <= y <= ub ->
  unit_draw r ->
  perturbed eps eta lb ub y r = Some a -> perturbed eps eta' lb ub y r = Some b -> Rabs (b - y) <= Rabs (a - y).
Proof.
  intros eps eta eta' lb ub y r a b He Ht Hy Hr A B.
  rewrite perturbed_value in A, B by (try assumption; lra). red in Hr.
  destruct (Rle_dec r (1 / 2)).
  - assert (RR := room_range eps lb ub (ub - y) He ltac:(lra)).
    assert (S := shrink_eta (2 * r) _ (eta + 1) (eta' + 1) ltac:(lra) RR ltac:(lra)).
    assert (S1 := shrink_range (2 * r) _ (eta' + 1) ltac:(lra) RR ltac:(lra)).
    injection A as <-. injection B as <-.
    rewrite !Rabs_left1 by nra. nra.
  - assert (RR := room_range eps lb ub (y - lb) He ltac:(lra)).
    assert (S := shrink_eta (2 * (1 - r)) _ (eta + 1) (eta' + 1) ltac:(lra) RR ltac:(lra)).
    assert (S1 := shrink_range (2 * (1 - r)) _ (eta' + 1) ltac:(lra) RR ltac:(lra)).
    injection A as <-. injection B as <-.
    rewrite !Rabs_right by nra. nra.
Qed.

Lemma perturbed_mirror : forall eps eta lb ub y r, 0 < eps -> 0 <= eta -> lb <= y <= ub -> unit_draw r ->
  perturbed eps eta (- ub) (- lb) (- y) (1 - r) = option_map Ropp (perturbed eps eta lb ub y r).
Proof.
  intros eps eta lb ub y r He Ht Hy Hr.
  assert (Hr' : unit_draw (1 - r)) by (red in Hr |- *; lra).
  rewrite !perturbed_value by (try assumption; lra). cbn [option_map]. f_equal.
  assert (R1 : forall far, room eps (- ub) (- lb) far = room eps lb ub far).
  { intros far. unfold room. f_equal. ring. }
  rewrite !R1. replace (- lb - - y) with (y - lb) by ring. replace (- y - - ub) with (ub - y) by ring.
  red in Hr.
  destruct (Rle_dec r (1 / 2)); destruct (Rle_dec (1 - r) (1 / 2)); try lra.
  - assert (E : r = 1 / 2) by lra. rewrite E. replace (2 * (1 - 1 / 2)) with 1 by field.
    replace (2 * (1 / 2)) with 1 by field. rewrite !shrink_one. ring.
  - replace (1 - (1 - r)) with r by ring. ring.
Qed.
