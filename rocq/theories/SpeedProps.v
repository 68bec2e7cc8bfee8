(** C166: the movement of OMOPSO's particles. *)
From Coq Require Import Reals List Lra Lia.
From Verif Require Import SpeedModel.
Import ListNotations.
Local Open Scope R_scope.

(** All draws lie in [0, 1). *)
Definition valid (d : draws) : Prop :=
  0 <= d_r1 d < 1 /\ 0 <= d_r2 d < 1 /\ 0 <= d_c1 d < 1 /\ 0 <= d_c2 d < 1 /\ 0 <= d_w d < 1.

(** A step whose draws are valid and whose personal best and leader lie in the box. *)
Definition valid_step (lb ub : R) (input : draws * R * R) : Prop :=
  let '(d, best, guide) := input in valid d /\ lb <= best <= ub /\ lb <= guide <= ub.

Lemma uniform_bounds a b u : a <= b -> 0 <= u < 1 -> a <= uniform a b u <= b.
Proof. intros H Hu. unfold uniform. split; nra. Qed.

(** The factor C * r of an attractor. *)
Lemma pull_bounds c r : 15/10 <= c <= 2 -> 0 <= r < 1 -> 0 <= c * r < 2.
Proof. intros. split; nra. Qed.

Lemma speed_bound lb ub d x s best guide : lb < ub -> valid d -> lb <= x <= ub -> lb <= best <= ub -> lb <= guide <= ub ->
  Rabs s < 8 * (ub - lb) -> Rabs (new_speed d x s best guide) < 8 * (ub - lb).
Proof.
  intros Hw (H1 & H2 & H3 & H4 & H5) Hx Hb Hg Hs. unfold new_speed.
  pose proof (uniform_bounds (1/10) (5/10) (d_w d) ltac:(lra) H5) as W.
  pose proof (pull_bounds _ _ (uniform_bounds (15/10) 2 (d_c1 d) ltac:(lra) H3) H1) as P1.
  pose proof (pull_bounds _ _ (uniform_bounds (15/10) 2 (d_c2 d) ltac:(lra) H4) H2) as P2.
  set (w := uniform (1/10) _ _) in *. set (p := uniform _ _ (d_c1 d) * _) in *. set (q := uniform _ _ (d_c2 d) * _) in *.
  apply Rabs_def2 in Hs. apply Rabs_def1; nra.
Qed.

(** Whatever the draws, the leaders and the personal bests: from rest, a particle never leaves the box and its speed
    never reaches eight times the width of the box. *)
Theorem C166_speed_is_bounded :
  forall (lb ub x0 : R) (inputs : list (draws * R * R)),
    lb < ub -> lb <= x0 <= ub -> Forall (valid_step lb ub) inputs ->
    let '(x, s) := flight lb ub x0 inputs in lb <= x <= ub /\ Rabs s < 8 * (ub - lb).
Proof.
  intros lb ub x0 inputs Hw Hx V. unfold flight.
  assert (H0 : Rabs 0 < 8 * (ub - lb)) by (rewrite Rabs_R0; lra). revert Hx H0. generalize 0 as s0. revert x0.
  induction V as [|((d, b), g) inputs (Vd & Vb & Vg) _ IH]; intros x s Hx Hs; cbn [fold_left]; [auto|].
  pose proof (speed_bound lb ub d x s b g Hw Vd Hx Vb Vg Hs) as B. cbn [fly]. unfold new_position at 1.
  set (s' := new_speed d x s b g) in *. cbv zeta. apply IH.
  - unfold Rmin, Rmax. repeat destruct (Rle_dec _ _); lra.
  - destruct (Req_EM_T _ _); [exact B|]. replace (s' * -1) with (- s') by ring. now rewrite Rabs_Ropp.
Qed.
Print Assumptions C166_speed_is_bounded.

(** Eight cannot be replaced by a smaller number: for each speed below eight widths there is a flight that is faster. *)
Definition towards (best : R) (e : R) : draws * R * R :=
  ({| d_r1 := 1 - e; d_r2 := 1 - e; d_c1 := 1 - e; d_c2 := 1 - e; d_w := 1 - e |}, best, best).
Fixpoint to_and_fro (n : nat) (e : R) : list (draws * R * R) :=
  match n with O => [] | S n' => to_and_fro n' e ++ [towards (if Nat.even n' then 1 else 0) e] end.

Lemma to_and_fro_state n e : 0 < e <= 1/16 ->
  let k := (5/10 - 4/10 * e) in let q := 2 * (2 - 5/10 * e) * (1 - e) in
  exists v, flight 0 1 0 (to_and_fro n e) = (if Nat.even n then 0 else 1, if Nat.even n then v else - v) /\
    v * (1 - k) = q * (1 - k ^ n) /\ 0 <= v.
Proof.
  intros He k q. assert (Hk : 0 < k < 1) by (unfold k; lra). assert (Hq : 1 < q) by (unfold q; nra).
  induction n as [|n (v & E & Hv & Pv)].
  - exists 0. cbn. repeat split; lra.
  - unfold flight in *. cbn [to_and_fro]. rewrite fold_left_app, E. cbn [fold_left fly towards]. exists (k * v + q).
    assert (N : Nat.even (S n) = negb (Nat.even n)) by (rewrite Nat.even_succ, <- Nat.negb_even; reflexivity). rewrite N.
    assert (Pw : 1 < k * v + q) by nra.
    assert (Eq : (k * v + q) * (1 - k) = q * (1 - k ^ S n)) by (cbn [pow]; replace ((k * v + q) * (1 - k)) with (k * (v * (1 - k)) + q * (1 - k)) by ring; rewrite Hv; ring).
    destruct (Nat.even n); cbn [negb]; (split; [|split; [exact Eq | lra]]).
    + unfold new_position. set (s' := new_speed _ _ _ _ _). assert (Es : s' = k * v + q) by (unfold s', new_speed, uniform, k, q; cbn; field).
      cbv zeta. rewrite Es. assert (M : Rmin (Rmax (0 + (k * v + q)) 0) 1 = 1) by (unfold Rmin, Rmax; repeat destruct (Rle_dec _ _); lra).
      rewrite M. destruct (Req_EM_T _ _); [lra|]. f_equal. ring.
    + unfold new_position. set (s' := new_speed _ _ _ _ _). assert (Es : s' = - (k * v + q)) by (unfold s', new_speed, uniform, k, q; cbn; field).
      cbv zeta. rewrite Es. assert (M : Rmin (Rmax (1 + - (k * v + q)) 0) 1 = 0) by (unfold Rmin, Rmax; repeat destruct (Rle_dec _ _); lra).
      rewrite M. destruct (Req_EM_T _ _); [lra|]. f_equal. ring.
Qed.
Lemma to_and_fro_valid n e : 0 < e <= 1/16 -> Forall (valid_step 0 1) (to_and_fro n e).
Proof.
  intros He. induction n as [|n IH]; cbn [to_and_fro]; [constructor|]. apply Forall_app. split; [exact IH|]. constructor; [|constructor].
  unfold valid_step, towards, valid. cbn. destruct (Nat.even n); repeat split; lra.
Qed.

Theorem C166_bound_is_sharp :
  forall r : R, r < 8 ->
    exists inputs, Forall (valid_step 0 1) inputs /\ let '(_, s) := flight 0 1 0 inputs in r < Rabs s.
Proof.
  intros r Hr. set (r' := Rmax r 4). assert (Hr' : 4 <= r' < 8) by (unfold r', Rmax; destruct (Rle_dec _ _); lra).
  assert (Hrr : r <= r') by apply Rmax_l.
  set (e := (8 - r') / 64). assert (He : 0 < e <= 1/16) by (unfold e; lra).
  set (k := 5/10 - 4/10 * e). assert (Hk : 0 < k < 1) by (unfold k; lra).
  destruct (pow_lt_1_zero k ltac:(rewrite Rabs_pos_eq; lra) e ltac:(lra)) as (n & Hn). specialize (Hn n ltac:(lia)).
  exists (to_and_fro n e). split; [now apply to_and_fro_valid|].
  destruct (to_and_fro_state n e He) as (v & -> & Hv & Pv). fold k in Hv.
  assert (Hp : k ^ n < e) by (apply Rle_lt_trans with (2 := Hn), Rle_abs).
  assert (V : r' < v).
  { set (t := k ^ n) in *. assert (1 - k = 5/10 + 4/10 * e) by (unfold k; lra).
    assert (Q : 2 * (2 - 5/10 * e) * (1 - e) >= 4 - 5 * e) by nra.
    assert (Z : v * (1 - k) >= (4 - 5 * e) * (1 - e)) by nra.
    assert (r' = 8 - 64 * e) by (unfold e; lra).
    apply Rmult_lt_reg_r with (1 - k); [lra|]. nra. }
  destruct (Nat.even n); [rewrite Rabs_pos_eq by exact Pv | rewrite Rabs_Ropp, Rabs_pos_eq by exact Pv]; lra.
Qed.
Print Assumptions C166_bound_is_sharp.

(** A resting particle moves towards its attractors, never away from both, and stays where it is if it has reached both. *)
Theorem C166_resting_particle :
  forall (lb ub x best guide : R) (d : draws),
    lb <= x <= ub -> valid d ->
    let '(x', _) := fly lb ub (x, 0) (d, best, guide) in
    (x <= best -> x <= guide -> x <= x') /\
    (best <= x -> guide <= x -> x' <= x) /\
    (x <= best -> x < guide -> x < ub -> 0 < d_r2 d -> x < x') /\
    (x < best -> x <= guide -> x < ub -> 0 < d_r1 d -> x < x').
Proof.
  intros lb ub x b g d Hx (H1 & H2 & H3 & H4 & H5). cbn [fly]. unfold new_position, new_speed.
  pose proof (uniform_bounds (15/10) 2 (d_c1 d) ltac:(lra) H3) as U1. pose proof (uniform_bounds (15/10) 2 (d_c2 d) ltac:(lra) H4) as U2.
  rewrite Rmult_0_r, Rplus_0_l.
  set (c1 := uniform _ _ (d_c1 d)) in *. set (c2 := uniform _ _ (d_c2 d)) in *.
  assert (P1 : 0 <= c1 * d_r1 d) by nra. assert (P2 : 0 <= c2 * d_r2 d) by nra.
  assert (S1 : 0 < d_r1 d -> 0 < c1 * d_r1 d) by (intros; nra). assert (S2 : 0 < d_r2 d -> 0 < c2 * d_r2 d) by (intros; nra).
  set (p := c1 * d_r1 d) in *. set (q := c2 * d_r2 d) in *. cbv zeta.
  assert (Up : forall y, x <= y -> x <= Rmin (Rmax y lb) ub) by (intros y Hy; unfold Rmin, Rmax; repeat destruct (Rle_dec _ _); lra).
  assert (Dn : forall y, y <= x -> Rmin (Rmax y lb) ub <= x) by (intros y Hy; unfold Rmin, Rmax; repeat destruct (Rle_dec _ _); lra).
  assert (Us : forall y, x < y -> x < ub -> x < Rmin (Rmax y lb) ub) by (intros y Hy Hu; unfold Rmin, Rmax; repeat destruct (Rle_dec _ _); lra).
  split; [intros; apply Up; nra|]. split; [intros; apply Dn; nra|].
  split; [intros A B C D'; apply Us; [specialize (S2 D'); nra | exact C] | intros A B C D'; apply Us; [specialize (S1 D'); nra | exact C]].
Qed.
Print Assumptions C166_resting_particle.

Theorem C166_reached :
  forall (lb ub x : R) (inputs : list draws), lb <= x <= ub ->
    flight lb ub x (map (fun d => (d, x, x)) inputs) = (x, 0).
Proof.
  intros lb ub x inputs Hx. unfold flight. induction inputs as [|d inputs IH]; [reflexivity|]. cbn [map fold_left fly].
  assert (E : new_speed d x 0 x x = 0) by (unfold new_speed; ring). rewrite E. unfold new_position.
  assert (M : Rmin (Rmax (x + 0) lb) ub = x) by (unfold Rmin, Rmax; repeat destruct (Rle_dec _ _); lra).
  cbv zeta. rewrite M. destruct (Req_EM_T _ _); [exact IH | exfalso; lra].
Qed.
Print Assumptions C166_reached.

(** Two steps to and fro in [0, 1]: the hypotheses are met, and the particle is back at 0 at a speed of more than four widths. *)
Example C166_example :
  Forall (valid_step 0 1) (to_and_fro 2 (1/16)) /\
  exists v, flight 0 1 0 (to_and_fro 2 (1/16)) = (0, v) /\ 4 < v.
Proof.
  split; [apply to_and_fro_valid; lra|]. destruct (to_and_fro_state 2 (1/16) ltac:(lra)) as (v & E & Hv & _). exists v.
  split; [exact E|]. cbn [pow] in Hv. lra.
Qed.
