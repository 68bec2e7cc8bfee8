(** Proofs about timed runs in floating point. *)
From Coq Require Import Reals List Lra Lia ZArith.
From Flocq Require Import Core.
From Verif Require Import Spec RunModel RunSpec RunProofs RndSpec RndIeee FTimeModel FTimeSpec.
Import ListNotations.
Local Open Scope R_scope.
Local Notation fexp := (FLT_exp (-1074) 53).
Local Notation P53 := (IZR (2 ^ 53)).
Local Notation P52 := (IZR (2 ^ 52)).

#[local] Instance prec53' : Prec_gt_0 53. Proof. reflexivity. Qed.

Lemma P53_pow : P53 = bpow radix2 53. Proof. reflexivity. Qed.

(** m * 2^e is a double when |m| < 2^53 and e >= -1074. *)
Lemma scaled_double m e : (Z.abs m < 2 ^ 53)%Z -> (-1074 <= e)%Z -> is_double (IZR m * bpow radix2 e).
Proof.
  intros Hm He. apply generic_format_FLT. exists (Float radix2 m e); [reflexivity|exact Hm|exact He].
Qed.

Lemma int_double z : (Z.abs z < 2 ^ 53)%Z -> is_double (IZR z).
Proof. intro H. replace (IZR z) with (IZR z * bpow radix2 0) by (cbn; ring). apply scaled_double; [exact H|lia]. Qed.

Lemma ieee_double x : is_double x -> ieee x = x.
Proof. intro H. unfold ieee. apply round_generic; [typeclasses eauto|exact H]. Qed.

Lemma ieee_int z : (Z.abs z < 2 ^ 53)%Z -> ieee (IZR z) = IZR z.
Proof. intro H. apply ieee_double, int_double, H. Qed.

Lemma ieee_int_le z : (Z.abs z <= 2 ^ 53)%Z -> ieee (IZR z) = IZR z.
Proof.
  intro H. destruct (Z_lt_le_dec (Z.abs z) (2 ^ 53)) as [L|L]; [apply ieee_int, L|].
  apply ieee_double. assert (E : (z = 2 ^ 53 \/ z = - 2 ^ 53)%Z) by lia.
  destruct E as [->| ->].
  - rewrite P53_pow. apply generic_format_FLT_bpow; [typeclasses eauto|lia].
  - rewrite opp_IZR, P53_pow. apply generic_format_opp, generic_format_FLT_bpow; [typeclasses eauto|lia].
Qed.

Lemma ieee_is_double x : is_double (ieee x).
Proof. apply generic_format_round; typeclasses eauto. Qed.

Lemma ieee_0 : ieee 0 = 0.
Proof. apply round_0. typeclasses eauto. Qed.

Lemma double_parts x : is_double x -> exists m e, x = IZR m * bpow radix2 e /\ (Z.abs m < 2 ^ 53)%Z /\ (-1074 <= e)%Z.
Proof.
  intro H. apply FLT_format_generic in H; [|typeclasses eauto]. destruct H as [f Hf Hm He].
  exists (Fnum f), (Fexp f). split; [exact Hf|]. split; [exact Hm|exact He].
Qed.

Lemma IZR_abs_lt z n : Rabs (IZR z) < IZR n -> (Z.abs z < n)%Z.
Proof. intro H. rewrite <- abs_IZR in H. apply lt_IZR in H. exact H. Qed.

(** Taking a whole number off a larger double is exact. *)
Lemma minus_int_exact x z : is_double x -> (0 <= z)%Z -> IZR z <= x -> x < P53 -> is_double (x - IZR z).
Proof.
  intros Hx Hz Hle Hlt. destruct (double_parts x Hx) as (m & e & -> & Hm & He).
  destruct (Z_le_gt_dec 0 e) as [E|E].
  - replace (IZR m * bpow radix2 e - IZR z) with (IZR (m * 2 ^ e - z)).
    + apply int_double. apply IZR_abs_lt. rewrite minus_IZR, mult_IZR.
      change (IZR (2 ^ e)) with (IZR (radix2 ^ e)). rewrite IZR_Zpower by exact E.
      assert (0 <= IZR z) by (apply (IZR_le 0); exact Hz).
      rewrite Rabs_pos_eq; lra.
    + rewrite minus_IZR, mult_IZR. change (IZR (2 ^ e)) with (IZR (radix2 ^ e)). rewrite IZR_Zpower by exact E. reflexivity.
  - assert (B : bpow radix2 (- e) * bpow radix2 e = 1) by (rewrite <- bpow_plus; replace (- e + e)%Z with 0%Z by lia; reflexivity).
    replace (IZR m * bpow radix2 e - IZR z) with (IZR (m - z * 2 ^ (- e)) * bpow radix2 e).
    + apply scaled_double; [|exact He]. apply IZR_abs_lt.
      rewrite minus_IZR, mult_IZR. change (IZR (2 ^ (- e))) with (IZR (radix2 ^ (- e))). rewrite IZR_Zpower by lia.
      assert (Z0 : 0 <= IZR z) by (apply (IZR_le 0); exact Hz).
      assert (Pe : 0 < bpow radix2 e) by apply bpow_gt_0.
      assert (Pn : 0 < bpow radix2 (- e)) by apply bpow_gt_0.
      assert (L : IZR z * bpow radix2 (- e) <= IZR m).
      { apply Rmult_le_reg_r with (bpow radix2 e); [exact Pe|]. rewrite Rmult_assoc, B, Rmult_1_r. exact Hle. }
      assert (0 <= IZR z * bpow radix2 (- e)) by (apply Rmult_le_pos; lra).
      rewrite Rabs_pos_eq by lra. apply Rle_lt_trans with (IZR m); [lra|].
      apply IZR_lt. lia.
    + rewrite minus_IZR, mult_IZR. change (IZR (2 ^ (- e))) with (IZR (radix2 ^ (- e))). rewrite IZR_Zpower by lia.
      rewrite Rmult_minus_distr_r, Rmult_assoc, B. ring.
Qed.

(** ---- CPython's // ---- *)
Lemma trunc_bound x : Rabs (IZR (Ztrunc x)) <= Rabs x.
Proof.
  unfold Ztrunc. destruct (Rlt_bool_spec x 0) as [H|H].
  - pose proof (Zceil_ub x). rewrite (Rabs_left x H).
    assert (C : (Zceil x <= 0)%Z) by (apply Zceil_glb; cbn; lra).
    rewrite Rabs_left1 by (apply (IZR_le _ 0); exact C). lra.
  - pose proof (Zfloor_lb x). rewrite (Rabs_pos_eq x H).
    assert (C : (0 <= Zfloor x)%Z) by (apply Zfloor_lub; cbn; lra).
    rewrite Rabs_pos_eq by (apply (IZR_le 0); exact C). lra.
Qed.

Lemma floordiv_exact a t : Rabs a < P53 -> (0 < t)%Z ->
  float_floordiv ieee a (IZR t) = IZR (Zfloor (a / IZR t)).
Proof.
  intros Ha Ht.
  assert (T : 0 < IZR t) by (apply (IZR_lt 0); exact Ht).
  assert (T1 : 1 <= IZR t) by (apply (IZR_le 1); lia).
  unfold float_floordiv. set (q := Ztrunc (a / IZR t)).
  assert (Hm : fmod a (IZR t) = a - IZR t * IZR q) by reflexivity.
  assert (Q : Rabs (IZR (t * q)) < P53).
  { rewrite mult_IZR, Rabs_mult, (Rabs_pos_eq (IZR t)) by lra.
    pose proof (trunc_bound (a / IZR t)) as B. fold q in B.
    apply Rle_lt_trans with (IZR t * Rabs (a / IZR t)); [apply Rmult_le_compat_l; lra|].
    unfold Rdiv. rewrite Rabs_mult, (Rabs_pos_eq (/ IZR t)) by (left; apply Rinv_0_lt_compat; lra).
    replace (IZR t * (Rabs a * / IZR t)) with (Rabs a) by (field; lra). exact Ha. }
  apply IZR_abs_lt in Q.
  assert (Q' : (Z.abs q < 2 ^ 53)%Z) by nia.
  assert (D : ieee (ieee (a - fmod a (IZR t)) / IZR t) = IZR q).
  { replace (a - fmod a (IZR t)) with (IZR (t * q)) by (rewrite Hm, mult_IZR; ring).
    rewrite (ieee_int _ Q), mult_IZR. replace (IZR t * IZR q / IZR t) with (IZR q) by (field; lra).
    apply ieee_int, Q'. }
  rewrite D.
  assert (Fin : forall z,
    (if Req_EM_T (IZR z) 0 then 0 else
       if Rlt_bool (1 / 2) (ieee (IZR z - IZR (Zfloor (IZR z)))) then ieee (IZR (Zfloor (IZR z)) + 1) else IZR (Zfloor (IZR z)))
    = IZR z).
  { intros z. destruct (Req_EM_T (IZR z) 0) as [E|E]; [rewrite E; reflexivity|].
    rewrite Zfloor_IZR, Rminus_diag_eq by reflexivity. rewrite ieee_0, Rlt_bool_false by lra. reflexivity. }
  assert (Hb : Rlt_bool (IZR t) 0 = false) by (apply Rlt_bool_false; lra).
  rewrite Hb. destruct (Req_EM_T (fmod a (IZR t)) 0) as [E|E].
  - rewrite Fin. f_equal. rewrite Hm in E.
    replace (a / IZR t) with (IZR q) by (apply Rmult_eq_reg_r with (IZR t); [field_simplify; lra|lra]).
    symmetry. apply Zfloor_IZR.
  - cbn [xorb]. assert (V : a / IZR t = IZR q + fmod a (IZR t) / IZR t) by (rewrite Hm; field; lra).
    destruct (Rlt_bool_spec (fmod a (IZR t)) 0) as [N|N].
    + assert (Ng : a / IZR t < 0).
      { destruct (Rlt_or_le (a / IZR t) 0) as [L|L]; [exact L|exfalso].
        assert (Ft : q = Zfloor (a / IZR t)) by (unfold q, Ztrunc; rewrite Rlt_bool_false by exact L; reflexivity).
        pose proof (Zfloor_lb (a / IZR t)) as Lb. rewrite <- Ft, V in Lb.
        assert (fmod a (IZR t) / IZR t < 0) by (apply Rmult_lt_reg_r with (IZR t); [lra|unfold Rdiv; rewrite Rmult_assoc, Rinv_l by lra; lra]).
        lra. }
      assert (Cq : q = Zceil (a / IZR t)) by (unfold q, Ztrunc; rewrite Rlt_bool_true by exact Ng; reflexivity).
      assert (Fl : Zfloor (a / IZR t) = (q - 1)%Z).
      { rewrite Cq. rewrite Zceil_floor_neq; [lia|]. intro Eq. apply E.
        assert (Zc : a / IZR t = IZR q).
        { rewrite Cq. pose proof (Zceil_ub (a / IZR t)). pose proof (Zfloor_lb (a / IZR t)).
          rewrite <- Eq. rewrite Zceil_IZR. reflexivity. }
        rewrite Hm. rewrite <- Zc. field. lra. }
      rewrite Fl. change (IZR q - 1) with (IZR q - IZR 1). rewrite <- minus_IZR.
      assert (q <= 0)%Z by (rewrite Cq; apply Zceil_glb; cbn; lra).
      assert (Q1 : (Z.abs (q - 1) <= 2 ^ 53)%Z) by lia.
      rewrite (ieee_int_le _ Q1). apply Fin.
    + assert (P : 0 < fmod a (IZR t)) by (destruct N as [N|N]; [exact N|exfalso; apply E; symmetry; exact N]).
      rewrite Fin. f_equal. symmetry. apply Zfloor_imp.
      assert (0 < fmod a (IZR t) / IZR t) by (apply Rdiv_lt_0_compat; lra).
      split; [lra|]. rewrite plus_IZR. unfold q at 1 in Hm. 
      destruct (Rlt_or_le (a / IZR t) 0) as [L|L].
      * exfalso. assert (Cq : q = Zceil (a / IZR t)) by (unfold q, Ztrunc; rewrite Rlt_bool_true by exact L; reflexivity).
        pose proof (Zceil_ub (a / IZR t)) as U. rewrite <- Cq in U. lra.
      * assert (Ft : q = Zfloor (a / IZR t)) by (unfold q, Ztrunc; rewrite Rlt_bool_false by exact L; reflexivity).
        rewrite Ft. pose proof (Zfloor_ub (a / IZR t)). lra.
Qed.

(** ---- in units of 2^-1074 ---- *)
Definition unit_inv : Z := (2 ^ 1074)%Z.
Lemma unit_pos : (0 < unit_inv)%Z. Proof. reflexivity. Qed.
Lemma unit_bpow : IZR unit_inv = bpow radix2 1074.
Proof. change unit_inv with (radix2 ^ 1074)%Z. apply IZR_Zpower. lia. Qed.
Lemma unit_R : 0 < IZR unit_inv. Proof. rewrite unit_bpow. apply bpow_gt_0. Qed.
#[local] Opaque unit_inv.

Lemma double_scaled x : is_double x -> exists X, IZR X = x * IZR unit_inv.
Proof.
  intro H. destruct (double_parts x H) as (m & e & -> & _ & He).
  exists (m * 2 ^ (e + 1074))%Z. rewrite mult_IZR. change (IZR (2 ^ (e + 1074))) with (IZR (radix2 ^ (e + 1074))).
  rewrite IZR_Zpower by lia. rewrite bpow_plus, unit_bpow. ring.
Qed.

Section Loop.
  Context {S : Type} (step : S -> S) (cost : S -> Z) (t timeout : Z).
  Hypothesis t_pos : (0 < t)%Z.
  Hypothesis t_small : (t < 2 ^ 53)%Z.
  Local Notation U := unit_inv.

  Lemma slots_due_exact x X k : is_double x -> IZR X = x * IZR U -> Rabs x < P52 -> (0 <= k)%Z -> (t * k < 2 ^ 52)%Z ->
    slots_due t ieee x k = Z.to_nat ((X - t * U * k) / (t * U)).
  Proof.
    intros Hx HX Hb Hk Hs. assert (T : 0 < IZR t) by (apply (IZR_lt 0); exact t_pos).
    pose proof unit_R as UR.
    assert (Sc : forall y : R, Zfloor ((x - IZR (t * k)) / IZR t) = ((X - t * U * k) / (t * U))%Z).
    { intros _. rewrite <- Zfloor_div by (pose proof unit_pos; nia).
      f_equal. rewrite minus_IZR, !mult_IZR, HX. field. split; lra. }
    specialize (Sc 0). unfold slots_due. rewrite (ieee_int (t * k)) by nia. rewrite (ieee_int t) by lia.
    assert (Hz : 0 <= IZR (t * k)) by (apply (IZR_le 0); nia).
    apply Rabs_def2 in Hb. destruct Hb as [Hb1 Hb2].
    assert (P5 : P52 < P53) by (apply IZR_lt; reflexivity).
    destruct (Rlt_or_le (x - IZR (t * k)) 0) as [L|L].
    - (* the clock is behind the last slot: nothing is due *)
      assert (N : ieee (x - IZR (t * k)) <= 0) by (rewrite <- ieee_0; apply ieee_le; lra).
      assert (Zr : Z.to_nat ((X - t * U * k) / (t * U)) = O).
      { rewrite <- Sc. assert (Zfloor ((x - IZR (t * k)) / IZR t) < 0)%Z; [|lia].
        apply lt_IZR. apply Rle_lt_trans with ((x - IZR (t * k)) / IZR t); [apply Zfloor_lb|].
        apply Rmult_lt_reg_r with (IZR t); [exact T|]. unfold Rdiv. rewrite Rmult_assoc, Rinv_l by lra. lra. }
      rewrite Zr. set (a := ieee (x - IZR (t * k))) in *.
      assert (Ab : (Ztrunc (float_floordiv ieee a (IZR t)) <= 0)%Z); [|lia].
      assert (Da : is_double a) by apply ieee_is_double.
      assert (B : Rabs a < P53).
      { assert (Lo : IZR (- (2 ^ 53 - 1)) <= a).
        { rewrite <- (ieee_int (- (2 ^ 53 - 1))) by reflexivity. apply ieee_le.
          assert (K : IZR (t * k) <= IZR (2 ^ 52 - 1)) by (apply IZR_le; lia).
          rewrite opp_IZR, minus_IZR. rewrite minus_IZR in K. change (IZR (2 ^ 53)) with (IZR (2 * 2 ^ 52)). rewrite mult_IZR. lra. }
        rewrite opp_IZR, minus_IZR in Lo. rewrite Rabs_left1 by exact N. lra. }
      rewrite floordiv_exact by (try exact B; exact t_pos). rewrite Ztrunc_IZR.
        apply le_IZR. apply Rle_trans with (a / IZR t); [apply Zfloor_lb|].
        apply Rmult_le_reg_r with (IZR t); [exact T|]. unfold Rdiv. rewrite Rmult_assoc, Rinv_l by lra. lra.
    - rewrite ieee_double by (apply minus_int_exact; [exact Hx|nia|lra|lra]).
      rewrite floordiv_exact by (try exact t_pos; rewrite Rabs_pos_eq; lra).
      rewrite Ztrunc_IZR, Sc. reflexivity.
  Qed.

  Definition rescale (e : emission S) : emission S :=
    {| e_time := e_time e * U; e_msg := e_msg e; e_state := e_state e |}.

  Lemma emit_slots_scaled c k prev s :
    emit_slots (t * U) (timeout * U) c k prev s =
    (map rescale (fst (emit_slots t timeout c k prev s)), snd (emit_slots t timeout c k prev s)).
  Proof.
    revert k. induction c as [|c IH]; intro k; [reflexivity|]. cbn [emit_slots]. rewrite IH.
    destruct (emit_slots t timeout c (k + 1) prev s) as [es n]. cbn [fst snd]. f_equal. rewrite map_app. f_equal.
    replace ((k + 1) * (t * U))%Z with ((k + 1) * t * U)%Z by ring.
    pose proof unit_pos as UP.
    destruct (Z.leb_spec ((k + 1) * t) timeout) as [L|L].
    - rewrite (proj2 (Z.leb_le _ _)) by (apply Z.mul_le_mono_nonneg_r; lia). reflexivity.
    - rewrite (proj2 (Z.leb_gt _ _)) by (apply Z.mul_lt_mono_pos_r; lia). reflexivity.
  Qed.

  Lemma emit_slots_no c k prev s : snd (emit_slots t timeout c k prev s : list (emission S) * Z) = (k + Z.of_nat c)%Z.
  Proof.
    revert k. induction c as [|c IH]; intro k; [cbn; lia|]. cbn [emit_slots]. specialize (IH (k + 1)%Z).
    destruct (emit_slots t timeout c (k + 1) prev s) as [es n]. cbn [fst snd] in *. lia.
  Qed.

  Lemma loop_scaled readings : forall x X k prev d,
    is_double x -> IZR X = x * IZR U -> (0 <= k)%Z -> (t * k < 2 ^ 52)%Z ->
    (forall j, (j <= length readings)%nat -> Rabs (fold_left (add_elapsed ieee) (firstn j readings) x) < P52) ->
    exists durs, length durs = length readings /\
      (forall j, IZR (X + fold_right Z.add 0 (firstn j durs))%Z =
                 fold_left (add_elapsed ieee) (firstn j readings) x * IZR U) /\
      time_loop step cost (t * U) (timeout * U) durs X k prev d =
      option_map (fun r => (map rescale (fst r), snd r)) (f_time_loop step cost t timeout ieee readings x k prev d).
  Proof.
    induction readings as [|rd readings IH]; intros x X k prev d Hx HX Hk Hs Hb.
    - exists []. split; [reflexivity|]. split.
      { intro j. rewrite !firstn_nil. cbn. rewrite Z.add_0_r. exact HX. }
      cbn [time_loop f_time_loop].
      assert (C : (X <? timeout * U)%Z = Rlt_bool x (IZR timeout)).
      { pose proof unit_R. destruct (Rlt_bool_spec x (IZR timeout)) as [L|L].
        - apply Z.ltb_lt, lt_IZR. rewrite HX, mult_IZR. apply Rmult_lt_compat_r; lra.
        - apply Z.ltb_ge, le_IZR. rewrite HX, mult_IZR. apply Rmult_le_compat_r; lra. }
      rewrite C. destruct (Rlt_bool x (IZR timeout)); reflexivity.
    - set (x' := add_elapsed ieee x rd).
      assert (Hx' : is_double x') by apply ieee_is_double.
      destruct (double_scaled x' Hx') as (X' & HX').
      assert (B' : Rabs x' < P52) by (apply (Hb 1%nat); cbn; lia).
      assert (Hb' : forall j, (j <= length readings)%nat -> Rabs (fold_left (add_elapsed ieee) (firstn j readings) x') < P52).
      { intros j Hj. apply (Hb (Datatypes.S j)). cbn. lia. }
      pose proof (slots_due_exact x' X' k Hx' HX' ltac:(exact B') Hk Hs) as Due.
      set (k' := match prev with Some _ => (k + Z.of_nat (slots_due t ieee x' k))%Z | None => k end).
      assert (Hk' : (0 <= k')%Z) by (unfold k'; destruct prev; lia).
      assert (Hs' : (t * k' < 2 ^ 52)%Z).
      { unfold k'. destruct prev as [q|]; [|exact Hs]. rewrite Due.
        set (f := ((X' - t * U * k) / (t * U))%Z).
        pose proof unit_pos as UP.
        destruct (Z_le_gt_dec f 0) as [F|F]; [replace (Z.of_nat (Z.to_nat f)) with 0%Z by lia; rewrite Z.add_0_r; exact Hs|].
        rewrite Z2Nat.id by lia.
        assert (G : (t * U * f <= X' - t * U * k)%Z) by (apply Z.mul_div_le; nia).
        apply lt_IZR. apply Rabs_def2 in B'. destruct B' as [B' _].
        apply Rle_lt_trans with x'; [|exact B'].
        apply Rmult_le_reg_r with (IZR U); [apply unit_R|]. rewrite <- HX', <- mult_IZR. apply IZR_le. lia. }
      destruct (IH x' X' k' (Some (fst (next_step step cost d))) (snd (next_step step cost d)) Hx' HX' Hk' Hs' Hb')
        as (durs & Ld & Hd & Eq).
      exists ((X' - X)%Z :: durs). split; [cbn; lia|]. split.
      { intros [|j]; [cbn; rewrite Z.add_0_r; exact HX|]. cbn [firstn fold_right fold_left].
        replace (X + (X' - X + fold_right Z.add 0 (firstn j durs)))%Z with (X' + fold_right Z.add 0 (firstn j durs))%Z by ring.
        apply Hd. }
      cbn [time_loop f_time_loop].
      assert (C : (X <? timeout * U)%Z = Rlt_bool x (IZR timeout)).
      { pose proof unit_R. destruct (Rlt_bool_spec x (IZR timeout)) as [L|L].
        - apply Z.ltb_lt, lt_IZR. rewrite HX, mult_IZR. apply Rmult_lt_compat_r; lra.
        - apply Z.ltb_ge, le_IZR. rewrite HX, mult_IZR. apply Rmult_le_compat_r; lra. }
      rewrite C. destruct (Rlt_bool x (IZR timeout)); [|reflexivity].
      destruct (next_step step cost d) as [result d'] eqn:Nx. cbn [fst snd] in Eq.
      replace (X + (X' - X))%Z with X' by ring. fold x'.
      destruct prev as [q|]; unfold k' in Eq.
      + rewrite emit_slots_scaled, <- Due.
        pose proof (emit_slots_no (slots_due t ieee x' k) k q (d_state d')) as No.
        destruct (emit_slots t timeout (slots_due t ieee x' k) k q (d_state d')) as [es n]. cbn [fst snd] in *. subst n.
        rewrite Eq. destruct (f_time_loop step cost t timeout ieee readings x' _ (Some result) d') as [[es' d'']|]; cbn; [|reflexivity].
        rewrite map_app. reflexivity.
      + rewrite Eq. destruct (f_time_loop step cost t timeout ieee readings x' k (Some result) d') as [[es' d'']|]; reflexivity.
  Qed.
End Loop.

(** ---- what the run delivers ---- *)
Section Results.
  Context {S : Type} (step : S -> S) (cost : S -> Z) (t timeout : Z).
  Hypothesis t_pos : (0 < t)%Z.
  Hypothesis t_small : (t < 2 ^ 53)%Z.
  Local Notation U := unit_inv.

  Lemma run_scaled readings d :
    (forall j, (j <= length readings)%nat -> Rabs (clock_after readings j) < P52) ->
    exists durs, length durs = length readings /\
      (forall j, IZR (fold_right Z.add 0 (firstn j durs))%Z = clock_after readings j * IZR U) /\
      time_run step cost (t * U) (timeout * U) durs d =
      option_map (fun r => (map (@rescale S) (fst r), snd r)) (f_time_run step cost t timeout ieee readings d).
  Proof.
    intro Hb. destruct (loop_scaled step cost t timeout t_pos t_small readings 0 0 0 None d) as (durs & L & Hs & E).
    - apply generic_format_0.
    - ring.
    - lia.
    - rewrite Z.mul_0_r. reflexivity.
    - exact Hb.
    - exists durs. split; [exact L|]. split; [|exact E]. intro j. specialize (Hs j). rewrite Z.add_0_l in Hs. exact Hs.
  Qed.

  Lemma clock_le readings n j : IZR (fold_right Z.add 0 (firstn n j))%Z = clock_after readings n * IZR U ->
    forall z, (z * U <= fold_right Z.add 0 (firstn n j))%Z <-> IZR z <= clock_after readings n.
  Proof.
    intros H z. pose proof unit_R as UR. split; intro L.
    - apply IZR_le in L. rewrite H, mult_IZR in L. apply Rmult_le_reg_r in L; assumption.
    - apply le_IZR. rewrite H, mult_IZR. apply Rmult_le_compat_r; lra.
  Qed.

  Theorem f_slots readings d es d' :
    (forall j, (j <= length readings)%nat -> Rabs (clock_after readings j) < P52) ->
    f_time_run step cost t timeout ieee readings d = Some (es, d') ->
    exists n, (n <= length readings)%nat /\
      d' = {| d_state := after step n (d_state d); d_step_no := (d_step_no d + n)%nat |} /\
      IZR timeout <= clock_after readings n /\
      (forall j, (j < n)%nat -> clock_after readings j < IZR timeout) /\
      map (@e_time S) es = if (n =? 1)%nat then [] else map (fun k => (k * t)%Z) (zrange 1 (timeout / t)).
  Proof.
    intros Hb H. destruct (run_scaled readings d Hb) as (durs & L & Hs & E). rewrite H in E. cbn [option_map fst snd] in E.
    pose proof unit_pos as UP.
    destruct (time_run_times step cost (t * U) (timeout * U) ltac:(nia) _ _ _ _ E) as (n & Hn & Hd & Ht & Hj & He).
    exists n. split; [lia|]. split; [exact Hd|]. split.
    { apply (clock_le readings n durs (Hs n)). exact Ht. }
    split.
    { intros j J. apply Rnot_le_lt. intro C. apply (clock_le readings j durs (Hs j)) in C. specialize (Hj j J). lia. }
    rewrite map_map in He. cbn [rescale e_time] in He.
    rewrite Z.div_mul_cancel_r in He by lia.
    assert (Inj : forall l1 l2, map (fun z => z * U)%Z l1 = map (fun z => z * U)%Z l2 -> l1 = l2).
    { induction l1 as [|a l1 IH]; intros [|b l2] Q; try discriminate; [reflexivity|].
      cbn in Q. injection Q as Qa Ql. f_equal; [|apply IH, Ql]. apply Z.mul_reg_r in Qa; [exact Qa|lia]. }
    apply Inj. rewrite map_map. etransitivity; [exact He|].
    destruct (n =? 1)%nat; [reflexivity|]. rewrite map_map. apply map_ext. intro k. ring.
  Qed.

  Theorem f_messages readings s k0 es d' :
    (forall j, (j <= length readings)%nat -> Rabs (clock_after readings j) < P52) ->
    f_time_run step cost t timeout ieee readings {| d_state := s; d_step_no := k0 |} = Some (es, d') ->
    Forall (fun em => exists k,
      e_msg em = {| p_step_no := (k0 + k)%nat; p_cost := cost (after step (Datatypes.S k) s) |} /\
      (Datatypes.S k < length readings)%nat /\
      IZR (e_time em) <= clock_after readings (Datatypes.S (Datatypes.S k)) /\
      (k = 0%nat \/ clock_after readings (Datatypes.S k) < IZR (e_time em)) /\
      e_state em = after step (Datatypes.S (Datatypes.S k)) s) es.
  Proof.
    intros Hb H. destruct (run_scaled readings {| d_state := s; d_step_no := k0 |} Hb) as (durs & L & Hs & E).
    rewrite H in E. cbn [option_map fst snd] in E. pose proof unit_pos as UP.
    pose proof (time_run_fresh step cost (t * U) (timeout * U) ltac:(nia) _ _ _ _ _ E) as F.
    rewrite Forall_map in F. eapply Forall_impl; [|exact F]. intros em (k & H1 & H2 & H3 & H4 & H5). exists k.
    cbn [rescale e_msg e_time e_state] in *. split; [exact H1|]. split; [lia|].
    split. { apply (clock_le readings _ durs (Hs _)). exact H3. }
    split; [|exact H5]. destruct H4 as [H4|H4]; [left; exact H4|right].
    apply Rnot_le_lt. intro C. apply (clock_le readings _ durs (Hs _)) in C. unfold finish_time in H4. lia.
  Qed.

  Theorem f_terminates readings n d :
    (forall j, (j <= length readings)%nat -> Rabs (clock_after readings j) < P52) ->
    (n <= length readings)%nat -> IZR timeout <= clock_after readings n ->
    exists es d', f_time_run step cost t timeout ieee readings d = Some (es, d').
  Proof.
    intros Hb Hn Ht. destruct (run_scaled readings d Hb) as (durs & L & Hs & E).
    destruct (time_run_progress step cost (t * U) (timeout * U) durs n d) as (es & d' & Q).
    - lia.
    - apply (clock_le readings n durs (Hs n)). exact Ht.
    - rewrite Q in E. destruct (f_time_run step cost t timeout ieee readings d) as [[es' d'']|]; [|discriminate E].
      exists es', d''. reflexivity.
  Qed.
End Results.

(** ---- no time is lost ---- *)
Lemma reading_grid x : is_double x -> IZR (2 ^ 30) <= x < IZR (2 ^ 31) -> exists m, x = IZR m * bpow radix2 (-22).
Proof.
  intros Hx [Lo Hi]. exists (Ztrunc (scaled_mantissa radix2 fexp x)).
  assert (Mg : mag radix2 x = 31%Z :> Z).
  { apply mag_unique. change (IZR (2 ^ 30)) with (bpow radix2 30) in Lo. change (IZR (2 ^ 31)) with (bpow radix2 31) in Hi.
    rewrite Rabs_pos_eq; [split; assumption|]. apply Rle_trans with (2 := Lo). apply bpow_ge_0. }
  assert (Cx : cexp radix2 fexp x = (-22)%Z) by (unfold cexp; rewrite Mg; reflexivity).
  unfold is_double, generic_format in Hx. rewrite Hx at 1. unfold F2R. cbn [Fnum Fexp]. rewrite Cx. reflexivity.
Qed.

Lemma grid_double m : (Z.abs m < 2 ^ 53)%Z -> is_double (IZR m * bpow radix2 (-22)).
Proof. intro H. apply scaled_double; [exact H|lia]. Qed.

Lemma grid_bound m b : Rabs (IZR m * bpow radix2 (-22)) < IZR b -> (Z.abs m < b * 2 ^ 22)%Z.
Proof.
  intro H. apply IZR_abs_lt. rewrite Rabs_mult, (Rabs_pos_eq (bpow radix2 (-22))) in H by apply bpow_ge_0.
  rewrite mult_IZR. change (IZR (2 ^ 22)) with (bpow radix2 22).
  apply Rmult_lt_reg_r with (bpow radix2 (-22)); [apply bpow_gt_0|].
  rewrite Rmult_assoc, <- bpow_plus. cbn [Z.add bpow]. rewrite Rmult_1_r. exact H.
Qed.

Lemma exact_clock readings : plausible_readings readings -> forall first, IZR (2 ^ 30) <= first -> never_set_back first readings ->
  forall t0 T, t0 = IZR T * bpow radix2 (-22) -> 0 <= t0 <= first - IZR (2 ^ 30) -> t0 < IZR (2 ^ 30) -> forall j,
  fold_left (fun t r => ieee (t + ieee (snd r - fst r))) (firstn j readings) t0 =
    fold_left (fun t r => t + (snd r - fst r)) (firstn j readings) t0 /\
  0 <= fold_left (fun t r => t + (snd r - fst r)) (firstn j readings) t0 < IZR (2 ^ 31).
Proof.
  induction 1 as [|r readings (D1 & D2 & B1 & B2) HF IH]; intros first Hf Hn t0 T HT Ht Hu j.
  - rewrite firstn_nil. cbn [fold_left]. split; [reflexivity|]. change (2 ^ 31)%Z with (2 * 2 ^ 30)%Z. rewrite mult_IZR. lra.
  - destruct Hn as (N1 & N2 & N3). destruct j as [|j].
    + cbn [firstn fold_left]. split; [reflexivity|]. change (2 ^ 31)%Z with (2 * 2 ^ 30)%Z in *. rewrite mult_IZR in *. lra.
    + cbn [firstn fold_left].
      destruct (reading_grid _ D1 B1) as (m1 & E1). destruct (reading_grid _ D2 B2) as (m2 & E2).
      assert (Ed : snd r - fst r = IZR (m2 - m1) * bpow radix2 (-22)) by (rewrite E1, E2, minus_IZR; ring).
      assert (Id : ieee (snd r - fst r) = snd r - fst r).
      { apply ieee_double. rewrite Ed. apply grid_double. apply Z.lt_le_trans with (2 ^ 31 * 2 ^ 22)%Z; [|lia].
        apply grid_bound. rewrite <- Ed. change (2 ^ 31)%Z with (2 * 2 ^ 30)%Z in *. rewrite mult_IZR in *. rewrite Rabs_pos_eq; lra. }
      assert (Es : t0 + (snd r - fst r) = IZR (T + (m2 - m1)) * bpow radix2 (-22)) by (rewrite Ed, HT, plus_IZR; ring).
      assert (Is : ieee (t0 + (snd r - fst r)) = t0 + (snd r - fst r)).
      { apply ieee_double. rewrite Es. apply grid_double. apply Z.lt_le_trans with (2 ^ 31 * 2 ^ 22)%Z; [|lia].
        apply grid_bound. rewrite <- Es. change (2 ^ 31)%Z with (2 * 2 ^ 30)%Z in *. rewrite mult_IZR in *. rewrite Rabs_pos_eq; lra. }
      rewrite Id, Is. apply (IH (snd r)) with (T := (T + (m2 - m1))%Z); [lra|exact N3|exact Es|lra|]. change (2 ^ 31)%Z with (2 * 2 ^ 30)%Z in *. rewrite mult_IZR in *. lra.
Qed.

Lemma no_time_lost readings : plausible_readings readings -> never_set_back (IZR (2 ^ 30)) readings -> forall j,
  clock_after readings j = true_time_after readings j /\ 0 <= true_time_after readings j < IZR (2 ^ 31).
Proof.
  intros Hp Hn j. unfold clock_after, true_time_after.
  apply (exact_clock readings Hp (IZR (2 ^ 30))) with (T := 0%Z); [lra|exact Hn|ring|lra|].
  apply (IZR_lt 0). reflexivity.
Qed.

Lemma plausible_bounded readings : plausible_readings readings -> never_set_back (IZR (2 ^ 30)) readings ->
  forall j, (j <= length readings)%nat -> Rabs (clock_after readings j) < IZR (2 ^ 52).
Proof.
  intros Hp Hn j _. destruct (no_time_lost readings Hp Hn j) as [-> [B1 B2]]. rewrite Rabs_pos_eq by exact B1.
  apply Rlt_trans with (1 := B2). apply IZR_lt. reflexivity.
Qed.
