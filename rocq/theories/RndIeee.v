(** IEEE double precision (round to nearest, ties to even, gradual underflow, no largest number for the elementary
    operations) satisfies what RndSpec.v assumes. *)
From Coq Require Import Reals List Lra Lia ZArith.
From Flocq Require Import Core Sterbenz Plus_error Mult_error.
From Verif Require Import RndSpec.
Local Open Scope R_scope.

Local Notation fexp := (FLT_exp (-1074) 53).
Definition ieee (x : R) : R := round radix2 fexp ZnearestE x.
Definition ieee_pow (x y : R) : R :=
  if Req_EM_T y 0 then 1 else if Req_EM_T x 0 then 0 else ieee (Rpower x y).
Definition ieee_top : R := bpow radix2 1024 - bpow radix2 971.
Definition ieee_eps : R := bpow radix2 (-52).
Definition ieee_last : R := 1 - bpow radix2 (-53).

#[local] Instance prec53 : Prec_gt_0 53. Proof. reflexivity. Qed.

Lemma format_repr x : generic_format radix2 fexp x -> repr ieee x.
Proof. intro H. unfold repr, ieee. apply round_generic; [typeclasses eauto|exact H]. Qed.
Lemma repr_format x : repr ieee x -> generic_format radix2 fexp x.
Proof. intro H. rewrite <- H. apply generic_format_round; typeclasses eauto. Qed.
Lemma ieee_le x y : x <= y -> ieee x <= ieee y.
Proof. intro H. apply round_le; [typeclasses eauto|typeclasses eauto|exact H]. Qed.
Lemma ieee_repr x : repr ieee (ieee x).
Proof. apply format_repr, generic_format_round; typeclasses eauto. Qed.
Lemma bpow_repr e : (-1074 <= e)%Z -> repr ieee (bpow radix2 e).
Proof. intro H. apply format_repr. apply generic_format_FLT_bpow; [typeclasses eauto|exact H]. Qed.
Lemma half_pow : 1 / 2 = bpow radix2 (-1). Proof. cbn. lra. Qed.
Lemma one_pow : 1 = bpow radix2 0. Proof. reflexivity. Qed.
Lemma two_pow : 2 = bpow radix2 1. Proof. cbn. lra. Qed.
Lemma opp_repr x : repr ieee x -> repr ieee (- x).
Proof. intro H. apply format_repr, generic_format_opp, repr_format, H. Qed.

(** Rounding errors below 1. *)
Lemma small_error x : 0 <= x < 1 -> ieee x <= x + bpow radix2 (-54).
Proof.
  intro H. destruct (Req_dec x 0) as [->|Hx].
  - unfold ieee. rewrite round_0 by typeclasses eauto. pose proof (bpow_ge_0 radix2 (-54)). lra.
  - assert (E : Rabs (ieee x - x) <= / 2 * ulp radix2 fexp x) by (apply error_le_half_ulp; typeclasses eauto).
    assert (U : ulp radix2 fexp x <= bpow radix2 (-53)).
    { rewrite ulp_neq_0 by exact Hx. apply bpow_le. unfold cexp, FLT_exp.
      assert (M : (mag radix2 x <= 0)%Z) by (apply mag_le_bpow; [exact Hx|rewrite Rabs_pos_eq by lra; cbn; lra]).
      apply Z.max_lub; lia. }
    assert (B : bpow radix2 (-53) = 2 * bpow radix2 (-54)).
    { rewrite two_pow, <- bpow_plus. reflexivity. }
    apply Rabs_le_inv in E. lra.
Qed.

Lemma above_one x : x <= 1 + bpow radix2 (-54) -> ieee x <= 1.
Proof.
  intro H. apply Rle_trans with (ieee (1 + bpow radix2 (-54))); [apply ieee_le, H|].
  unfold ieee. apply round_N_le_midp; [typeclasses eauto| |].
  - apply repr_format. rewrite one_pow. apply bpow_repr. lia.
  - rewrite one_pow at 2 3. rewrite succ_eq_pos by apply bpow_ge_0. rewrite ulp_bpow.
    replace (fexp (0 + 1)) with (-52)%Z by reflexivity.
    assert (B : bpow radix2 (-52) = 4 * bpow radix2 (-54)).
    { replace 4 with (bpow radix2 2) by (cbn; lra). rewrite <- bpow_plus. reflexivity. }
    pose proof (bpow_gt_0 radix2 (-54)). rewrite <- one_pow. lra.
Qed.

Lemma double_repr x : repr ieee x -> repr ieee (2 * x).
Proof.
  intro H. apply format_repr. rewrite Rmult_comm, two_pow. apply mult_bpow_pos_exact_FLT; [apply repr_format, H|lia].
Qed.

Lemma ieee_share_low a : repr ieee a -> 0 <= a <= 1 -> ieee (a + ieee (1 - a)) <= 1.
Proof.
  intros Ha H. destruct (Req_dec a 0) as [->|Hn].
  - rewrite Rminus_0_r, Rplus_0_l. rewrite one_pow, !(bpow_repr 0) by lia. cbn; lra.
  - apply above_one. pose proof (small_error (1 - a) ltac:(lra)). lra.
Qed.

Lemma ieee_share_high r : repr ieee r -> 1 / 2 < r < 1 -> ieee (ieee (2 * ieee (1 - r)) + ieee (2 * ieee (r - 1 / 2))) <= 1.
Proof.
  intros Hr H.
  assert (R1 : repr ieee (1 - r)).
  { apply format_repr, sterbenz; [typeclasses eauto|typeclasses eauto| |apply repr_format, Hr|lra].
    apply repr_format. rewrite one_pow. apply bpow_repr. lia. }
  assert (R2 : repr ieee (r - 1 / 2)).
  { apply format_repr, sterbenz; [typeclasses eauto|typeclasses eauto|apply repr_format, Hr| |lra].
    apply repr_format. rewrite half_pow. apply bpow_repr. lia. }
  rewrite R1, R2. rewrite (double_repr _ R1), (double_repr _ R2).
  replace (2 * (1 - r) + 2 * (r - 1 / 2)) with 1 by lra. rewrite one_pow, (bpow_repr 0) by lia. lra.
Qed.

Lemma ieee_01 x : 0 <= x <= 1 -> 0 <= ieee x <= 1.
Proof.
  intro H. split.
  - replace 0 with (ieee 0) by (unfold ieee; apply round_0; typeclasses eauto). apply ieee_le. lra.
  - replace 1 with (ieee 1) by (rewrite one_pow; apply bpow_repr; lia). apply ieee_le. lra.
Qed.

Lemma exp_mono x y : x <= y -> exp x <= exp y.
Proof. intros [H| ->]; [left; now apply exp_increasing|lra]. Qed.
Lemma ln_sign x : 0 < x <= 1 -> ln x <= 0.
Proof. intro H. destruct (Req_dec x 1) as [->|]; [rewrite ln_1; lra|]. rewrite <- ln_1. left. apply ln_increasing; lra. Qed.
Lemma ln_sign' x : 1 <= x -> 0 <= ln x.
Proof. intro H. destruct (Req_dec x 1) as [->|]; [rewrite ln_1; lra|]. rewrite <- ln_1. left. apply ln_increasing; lra. Qed.

Lemma Rpower_share x y : 0 < x <= 1 -> 0 <= y -> 0 <= Rpower x y <= 1.
Proof.
  intros Hx Hy. split; [left; apply exp_pos|]. unfold Rpower. rewrite <- exp_0. apply exp_mono.
  pose proof (ln_sign x Hx). rewrite <- (Rmult_0_r y). apply Rmult_le_compat_l; assumption.
Qed.
Lemma Rpower_falls x y : 1 <= x -> y <= 0 -> 0 <= Rpower x y <= 1.
Proof.
  intros Hx Hy. split; [left; apply exp_pos|]. unfold Rpower. rewrite <- exp_0. apply exp_mono.
  pose proof (ln_sign' x Hx). rewrite <- (Rmult_0_l (ln x)). apply Rmult_le_compat_r; assumption.
Qed.
Lemma Rpower_root x y : 1 <= x -> 0 <= y <= 1 -> Rpower x y <= x.
Proof.
  intros Hx Hy. rewrite <- (Rpower_1 x) at 2 by lra. unfold Rpower. apply exp_mono.
  apply Rmult_le_compat_r; [apply ln_sign', Hx|lra].
Qed.

Lemma last_repr : repr ieee ieee_last.
Proof.
  apply format_repr. unfold ieee_last.
  replace (1 - bpow radix2 (-53)) with (F2R (Float radix2 (2 ^ 53 - 1) (-53))).
  - apply generic_format_FLT. exists (Float radix2 (2 ^ 53 - 1) (-53)); [reflexivity| |].
    + cbn [Fnum]. rewrite Z.abs_eq by lia. cbn. lia.
    + cbn [Fexp]. lia.
  - unfold F2R. cbn [Fnum Fexp]. rewrite minus_IZR. change (2 ^ 53)%Z with (radix2 ^ 53)%Z. rewrite IZR_Zpower by lia.
    rewrite Rmult_minus_distr_r, <- bpow_plus. cbn [Z.add Z.pos_sub]. rewrite Rmult_1_l. reflexivity.
Qed.

Lemma ieee_arithmetic : arithmetic ieee ieee_pow ieee_top ieee_eps ieee_last.
Proof.
  assert (Z0 : repr ieee 0) by (unfold repr, ieee; apply round_0; typeclasses eauto).
  assert (Z1 : repr ieee 1) by (rewrite one_pow; apply bpow_repr; lia).
  assert (L2 : 2 * ieee_last = 2 - bpow radix2 (-52)).
  { unfold ieee_last. assert (bpow radix2 (-52) = 2 * bpow radix2 (-53)) by (rewrite two_pow, <- bpow_plus; reflexivity). lra. }
  assert (T : bpow radix2 52 <= ieee_top).
  { unfold ieee_top. assert (bpow radix2 1024 = bpow radix2 53 * bpow radix2 971) by (rewrite <- bpow_plus; reflexivity).
    assert (bpow radix2 52 <= bpow radix2 971) by (apply bpow_le; lia).
    assert (2 <= bpow radix2 53) by (rewrite two_pow; apply bpow_le; lia).
    pose proof (bpow_gt_0 radix2 971). rewrite H. nra. }
  constructor.
  - exact ieee_le.
  - exact ieee_repr.
  - exact opp_repr.
  - exact Z0.
  - rewrite half_pow. apply bpow_repr. lia.
  - exact Z1.
  - rewrite two_pow. apply bpow_repr. lia.
  - apply bpow_repr. lia.
  - apply bpow_gt_0.
  - unfold ieee_last. pose proof (bpow_gt_0 radix2 (-53)). lra.
  - apply double_repr, last_repr.
  - replace (2 - 2 * ieee_last) with (bpow radix2 (-52)) by lra. apply bpow_repr. lia.
  - exact ieee_share_low.
  - exact ieee_share_high.
  - intros x y Hx. unfold ieee_pow. destruct (Req_EM_T y 0); [exact Z1|]. destruct (Req_EM_T x 0); [exact Z0|apply ieee_repr].
  - intros x y Hx. unfold ieee_pow. destruct (Req_EM_T y 0); [lra|]. destruct (Req_EM_T x 0); [lra|].
    rewrite <- Z0. apply ieee_le. left. apply exp_pos.
  - intros x y Hx Hy. unfold ieee_pow. destruct (Req_EM_T y 0); [lra|]. destruct (Req_EM_T x 0); [lra|].
    apply ieee_01, Rpower_share; lra.
  - intros x y Hx Hy. unfold ieee_pow. destruct (Req_EM_T y 0); [lra|]. destruct (Req_EM_T x 0); [lra|].
    apply ieee_01, Rpower_falls; lra.
  - intros x y Rx Hx Hy. unfold ieee_pow. destruct (Req_EM_T y 0); [lra|]. destruct (Req_EM_T x 0); [lra|].
    rewrite <- Rx at 2. apply ieee_le, Rpower_root; lra.
  - intros y Hy. unfold ieee_pow. destruct (Req_EM_T y 0); [lra|]. destruct (Req_EM_T 0 0); [reflexivity|lra].
  - intros x Hx. unfold ieee_pow. destruct (Req_EM_T 0 0); [reflexivity|lra].
  - apply Rle_trans with (bpow radix2 52); [|exact T]. rewrite two_pow. apply bpow_le. lia.
  - replace (2 - 2 * ieee_last) with (bpow radix2 (-52)) by lra.
    replace (1 / bpow radix2 (-52)) with (bpow radix2 52); [rewrite (bpow_repr 52) by lia; exact T|].
    unfold Rdiv. rewrite Rmult_1_l, <- bpow_opp. reflexivity.
Qed.

(** ---- random.uniform ---- *)
Lemma last_repr_bound w : bpow radix2 (-1021) <= w -> repr ieee w -> ieee (w * ieee_last) <= pred radix2 fexp w.
Proof.
  intros Hw Rw. apply repr_format in Rw. pose proof (bpow_gt_0 radix2 (-1021)) as P.
  assert (Hp : bpow radix2 (-1022) <= pred radix2 fexp w).
  { apply pred_ge_gt; [typeclasses eauto|apply repr_format, bpow_repr; lia|exact Rw|].
    apply Rlt_le_trans with (bpow radix2 (-1021)); [apply bpow_lt; lia|exact Hw]. }
  pose proof (bpow_gt_0 radix2 (-1022)) as P'.
  assert (E : pred radix2 fexp w + ulp radix2 fexp (pred radix2 fexp w) = w) by (apply pred_plus_ulp; [typeclasses eauto|lra|exact Rw]).
  assert (U : ulp radix2 fexp (pred radix2 fexp w) <= Rabs (pred radix2 fexp w) * bpow radix2 (1 - 53)).
  { apply ulp_FLT_le. rewrite Rabs_pos_eq by lra. exact Hp. }
  rewrite Rabs_pos_eq in U by lra. cbn [Z.sub Z.add Z.opp Z.pos_sub] in U. change (1 - 53)%Z with (-52)%Z in U.
  unfold ieee. apply round_N_le_midp; [typeclasses eauto|apply generic_format_pred; [typeclasses eauto|exact Rw]|].
  rewrite succ_pred by (try typeclasses eauto; exact Rw).
  unfold ieee_last. assert (B : bpow radix2 (-52) = 2 * bpow radix2 (-53)) by (rewrite two_pow, <- bpow_plus; reflexivity).
  pose proof (bpow_gt_0 radix2 (-53)). rewrite B in U.
  assert (pred radix2 fexp w < w).
  { assert (0 < ulp radix2 fexp (pred radix2 fexp w)); [|lra]. rewrite ulp_neq_0 by lra. apply bpow_gt_0. }
  assert (pred radix2 fexp w * bpow radix2 (-53) < w * bpow radix2 (-53)) by (apply Rmult_lt_compat_r; lra).
  lra.
Qed.

Lemma uniform_in a b r : repr ieee a -> repr ieee b -> a <= b -> draw ieee ieee_last r ->
  a <= ieee (a + ieee (ieee (b - a) * r)) <= b.
Proof.
  intros Ra Rb H [Rr Hr].
  assert (Z0 : ieee 0 = 0) by (unfold ieee; apply round_0; typeclasses eauto).
  assert (W0 : 0 <= ieee (b - a)) by (rewrite <- Z0; apply ieee_le; lra).
  assert (P0 : 0 <= ieee (ieee (b - a) * r)) by (rewrite <- Z0; apply ieee_le, Rmult_le_pos; lra).
  split; [rewrite <- Ra at 1; apply ieee_le; lra|].
  rewrite <- Rb. apply ieee_le. assert (G : ieee (ieee (b - a) * r) <= b - a); [|rewrite (Rb : ieee b = b) in *; lra].
  assert (Hl : ieee_last < 1) by (unfold ieee_last; pose proof (bpow_gt_0 radix2 (-53)); lra).
  destruct (Rle_dec (ieee (b - a)) (b - a)) as [D|D].
  - apply Rle_trans with (ieee (b - a)); [|exact D]. rewrite <- (ieee_repr (b - a)) at 2. apply ieee_le.
    rewrite <- (Rmult_1_r (ieee (b - a))) at 2. apply Rmult_le_compat_l; lra.
  - destruct (Rle_dec (b - a) (bpow radix2 (-1021))) as [S|S].
    + exfalso. apply D. right. apply format_repr. unfold Rminus. apply FLT_format_plus_small; [typeclasses eauto|apply repr_format, Rb|apply repr_format, opp_repr, Ra|].
      change (53 + -1074)%Z with (-1021)%Z. unfold Rminus in S, H |- *. rewrite Rabs_pos_eq by lra. exact S.
    + set (w := ieee (b - a)) in *.
      assert (Bw : bpow radix2 (-1021) <= w) by (apply Rle_trans with (b - a); lra).
      assert (Rw : repr ieee w) by apply ieee_repr.
      assert (Pw : pred radix2 fexp w <= b - a).
      { destruct (Rle_dec (pred radix2 fexp w) (b - a)) as [|C]; [assumption|exfalso].
        assert (w <= pred radix2 fexp w).
        { unfold w at 1. rewrite <- (format_repr (pred radix2 fexp w)); [apply ieee_le; lra|].
          apply generic_format_pred; [typeclasses eauto|apply repr_format, Rw]. }
        assert (pred radix2 fexp w < w); [|lra]. apply pred_lt_id. pose proof (bpow_gt_0 radix2 (-1021)). lra. }
      apply Rle_trans with (ieee (w * ieee_last)); [apply ieee_le, Rmult_le_compat_l; lra|].
      apply Rle_trans with (pred radix2 fexp w); [apply last_repr_bound; assumption|exact Pw].
Qed.
