(** Properties C55 and C91: mantissa trimming. *)
From Verif Require Import TrimModel TrimSpec TrimProofs.
From Coq Require Import QArith Qpower Qabs List Bool Lia Lqa.
Import ListNotations.
Local Open Scope Q_scope.

(** C55.  [normal emin x]: the leading digit is 1 unless the exponent is the smallest one (zero and subnormals). *)
Theorem C55_trim_towards_zero x k :
  sign (trim_mantissa x k) = sign x /\
  (0 <= value x -> 0 <= value (trim_mantissa x k) <= value x) /\
  (value x <= 0 -> value x <= value (trim_mantissa x k) <= 0) /\
  Qabs (value x - value (trim_mantissa x k)) < Qpower 2 (exponent x - Z.of_nat k).
Proof.
  split; [reflexivity|]. pose proof (trim_magnitude x k) as (H1 & H2). pose proof (magnitude_nonneg x) as H3. pose proof (magnitude_nonneg (trim_mantissa x k)) as H4.
  assert (U : half k * Qpower 2 (exponent x) == Qpower 2 (exponent x - Z.of_nat k)).
  { rewrite half_power. replace (exponent x - Z.of_nat k)%Z with (- Z.of_nat k + exponent x)%Z by lia. rewrite Qpower_plus by lra. reflexivity. }
  rewrite <- U. unfold value. rewrite trim_sign.
  destruct (sign x); (split; [intros; lra|]); (split; [intros; lra|]); apply Qabs_case; lra.
Qed.
Print Assumptions C55_trim_towards_zero.

Theorem C55_trim_idempotent x k : trim_mantissa (trim_mantissa x k) k = trim_mantissa x k.
Proof.
  assert (E : digits (trim_mantissa (trim_mantissa x k) k) = digits (trim_mantissa x k)) by (rewrite !trim_digits; apply keep_idem).
  unfold trim_mantissa at 1. cbn [sign exponent]. unfold trim_mantissa at 1 in E. cbn [digits] in E. rewrite E. reflexivity.
Qed.
Print Assumptions C55_trim_idempotent.

Theorem C55_trim_enough_bits x k : (length (digits x) <= k)%nat -> trim_mantissa x k = x.
Proof.
  intros H. destruct x as [s ds e]. unfold trim_mantissa. cbn [sign digits exponent] in *. f_equal. rewrite <- (keep_all k ds H) at 2. apply (keep_digits_keep ds 0 k).
Qed.
Print Assumptions C55_trim_enough_bits.

Theorem C55_trim_monotone emin k x y : normal emin x -> normal emin y -> value x <= value y ->
  value (trim_mantissa x k) <= value (trim_mantissa y k).
Proof. apply trim_value_mono. Qed.
Print Assumptions C55_trim_monotone.

(** [lo] and [hi] are the bounds of one dimension. *)
Theorem C55_trim_stays_in_box emin k lo hi x : normal emin lo -> normal emin hi -> normal emin x ->
  (value lo <= 0 \/ value (trim_mantissa lo k) == value lo) -> (0 <= value hi \/ value (trim_mantissa hi k) == value hi) ->
  value lo <= value x <= value hi -> value lo <= value (trim_mantissa x k) <= value hi.
Proof.
  intros Nl Nh Nx Hl Hh (H1 & H2). destruct (C55_trim_towards_zero x k) as (_ & P & M & _).
  pose proof (trim_value_mono emin k lo x Nl Nx H1) as G1. pose proof (trim_value_mono emin k x hi Nx Nh H2) as G2.
  destruct (Qlt_le_dec (value x) 0) as [L|L].
  - destruct (M ltac:(lra)) as (M1 & M2). split; [lra|]. destruct Hh as [Hh|Hh]; lra.
  - destruct (P L) as (P1 & P2). split; [|lra]. destruct Hl as [Hl|Hl]; lra.
Qed.
Print Assumptions C55_trim_stays_in_box.

Definition c55_x : float_tuple := {| sign := true; digits := [true; false; true; true; false; true]; exponent := 3 |}.
Example C55_example : value c55_x == - (45 # 8) /\ value (trim_mantissa c55_x 3) == - (5 # 1) /\ normal (-10) c55_x /\
  value (trim_mantissa {| sign := false; digits := [true]; exponent := 4 |} 1) == value {| sign := false; digits := [true]; exponent := 4 |}.
Proof. split; [reflexivity|]. split; [reflexivity|]. split; [split; [cbn; lia | left; eexists; reflexivity] | reflexivity]. Qed.

(** C91: a point that lies within the bounds and is trimmed, as the nodes of HGS trim every point before they evaluate
    it, need not lie within them afterwards. *)
Theorem C91_trimmed_points_within_bounds_refuted : exists emin box v k,
  Forall (normal emin) v /\ Forall (fun b => normal emin (fst b) /\ normal emin (snd b) /\ value (fst b) < value (snd b)) box /\
  (1 <= k)%nat /\ within box v /\ ~ within box (trim_vector v k).
Proof.
  pose (lo := {| sign := false; digits := [true; true]; exponent := 0%Z |}). pose (hi := {| sign := false; digits := [true]; exponent := 1%Z |}).
  pose (x := {| sign := false; digits := [true; true; true]; exponent := 0%Z |}).
  exists (-1000)%Z, [(lo, hi)], [x], 1%nat.
  assert (N : forall s ds e, (-1000 <= e)%Z -> normal (-1000) {| sign := s; digits := true :: ds; exponent := e |}) by (intros; split; [assumption | left; eexists; reflexivity]).
  split; [constructor; [apply N; lia | constructor]|]. split; [constructor; [split; [apply N; lia | split; [apply N; lia | vm_compute; reflexivity]] | constructor]|].
  split; [lia|]. split; [constructor; [split; vm_compute; discriminate | constructor]|].
  intros H. inversion H as [|b y bs ys (H1 & _) _]; subst. vm_compute in H1. apply H1. reflexivity.
Qed.
Print Assumptions C91_trimmed_points_within_bounds_refuted.

(** What holds: bounds that are zero, straddle zero or have at most [k] significant bits. *)
Theorem C91_trimmed_points_within_bounds_partial emin box v k :
  Forall (normal emin) v ->
  Forall (fun b => normal emin (fst b) /\ normal emin (snd b) /\
    (value (fst b) <= 0 \/ value (trim_mantissa (fst b) k) == value (fst b)) /\ (0 <= value (snd b) \/ value (trim_mantissa (snd b) k) == value (snd b))) box ->
  within box v -> within box (trim_vector v k).
Proof.
  intros Nv Hb H. induction H as [|b x box v Hx _ IH]; [constructor|]. inversion Nv; inversion Hb as [|b' box' (N1 & N2 & B1 & B2) HB]; subst. constructor; [|apply IH; assumption].
  now apply (C55_trim_stays_in_box emin k).
Qed.
Print Assumptions C91_trimmed_points_within_bounds_partial.

(** -5.625 within [-8, 6] keeps its place with three digits. *)
Example C91_example :
  let lo := {| sign := true; digits := [true]; exponent := 4%Z |} in
  let hi := {| sign := false; digits := [true; true]; exponent := 3%Z |} in
  normal (-10) lo /\ normal (-10) hi /\ value (trim_mantissa lo 3) == value lo /\ value (trim_mantissa hi 3) == value hi /\
  within [(lo, hi)] [c55_x] /\ within [(lo, hi)] (trim_vector [c55_x] 3) /\ value (trim_mantissa c55_x 3) == - (5 # 1).
Proof.
  cbv zeta. split; [split; [cbn; lia | left; eexists; reflexivity]|]. split; [split; [cbn; lia | left; eexists; reflexivity]|].
  repeat (split; [vm_compute; reflexivity|]).
  split; [constructor; [split; vm_compute; discriminate|constructor]|].
  split; [constructor; [split; vm_compute; discriminate|constructor]|]. vm_compute. reflexivity.
Qed.
