(** ZDT3: what the sampled front misses, and how far it covers the curve. *)
From Coq Require Import Reals List Lra Lia Psatz Arith.
From Verif Require Import ProbModel ProbSpec ProbProofs ProbCurve ProbMore.
Import ListNotations.
Local Open Scope R_scope.

Lemma sin_upper5 a : 0 <= a <= PI -> sin a <= a - a ^ 3 / 6 + a ^ 5 / 120.
Proof.
  intros Ha. destruct (sin_bound a 0) as [_ U]; [lra|lra|].
  unfold sin_approx, sin_term in U. cbn [sum_f_R0 Nat.mul Nat.add fact] in U.
  rewrite !INR_IZR_INZ in U. cbn in U. cbn. lra.
Qed.

Lemma sin_lower3 a : 0 <= a <= PI -> a - a ^ 3 / 6 <= sin a.
Proof.
  intros Ha. destruct (sin_bound a 0) as [U _]; [lra|lra|].
  unfold sin_approx, sin_term in U. cbn [sum_f_R0 Nat.mul Nat.add fact] in U.
  rewrite !INR_IZR_INZ in U. cbn in U. cbn. lra.
Qed.

Lemma pi_close : 3.14 < PI < 3.15.
Proof.
  pose proof pi_bounds as B. pose proof sin_PI6 as S. split.
  - destruct (Rlt_dec 3.14 PI) as [L|L]; [assumption|]. exfalso.
    assert (sin (PI / 6) <= sin (3.14 / 6)) by (apply sin_incr_1; lra).
    pose proof (sin_upper5 (3.14 / 6)). lra.
  - destruct (Rlt_dec PI 3.15) as [L|L]; [assumption|]. exfalso.
    assert (sin (3.15 / 6) <= sin (PI / 6)) by (apply sin_incr_1; lra).
    pose proof (sin_lower3 (3.15 / 6)). lra.
Qed.

Lemma sqrt3_close : 1.732 < sqrt 3 < 1.7321.
Proof.
  split.
  - rewrite <- (sqrt_Rsqr 1.732) by lra. apply sqrt_lt_1; unfold Rsqr; lra.
  - rewrite <- (sqrt_Rsqr 1.7321) by lra. apply sqrt_lt_1; unfold Rsqr; lra.
Qed.

Lemma sin_le_x a : 0 <= a -> sin a <= a.
Proof. intros [H|<-]; [left; now apply sin_lt_x|rewrite sin_0; lra]. Qed.

(** Near a sixth of the half turn. *)
Lemma sin_sixth d : sin (PI / 6 + d) = / 2 * cos d + sqrt 3 / 2 * sin d.
Proof. rewrite sin_plus, sin_PI6, cos_PI6. lra. Qed.

Lemma at_25_upper : sin (10 * PI * (25 / 299)) <= / 2 - sqrt 3 / 2 * (5 * PI / 1794 - (5 * PI / 1794) ^ 3 / 6).
Proof.
  pose proof pi_close. pose proof sqrt3_close.
  replace (10 * PI * (25 / 299)) with (PI - (PI / 6 + - (5 * PI / 1794))) by field.
  rewrite sin_PI_x, sin_sixth, cos_neg, sin_neg.
  pose proof (COS_bound (5 * PI / 1794)). pose proof (sin_lower3 (5 * PI / 1794)) as L.
  assert (sqrt 3 / 2 * (5 * PI / 1794 - (5 * PI / 1794) ^ 3 / 6) <= sqrt 3 / 2 * sin (5 * PI / 1794)).
  { apply Rmult_le_compat_l; [lra|]. apply L. lra. }
  lra.
Qed.

Lemma at_25_lower : / 2 * (1 - (5 * PI / 1794) ^ 2 / 2) - sqrt 3 / 2 * (5 * PI / 1794) <= sin (10 * PI * (25 / 299)).
Proof.
  pose proof pi_close. pose proof sqrt3_close.
  replace (10 * PI * (25 / 299)) with (PI - (PI / 6 + - (5 * PI / 1794))) by field.
  rewrite sin_PI_x, sin_sixth, cos_neg, sin_neg. set (d := 5 * PI / 1794).
  assert (D : 0 <= d <= 0.01) by (unfold d; lra).
  pose proof (sin_le_x d) as U. pose proof (cos_lower d) as L.
  assert (sqrt 3 / 2 * sin d <= sqrt 3 / 2 * d) by (apply Rmult_le_compat_l; lra).
  assert (d ^ 6 <= 30 * d ^ 4).
  { replace (d ^ 6) with (d ^ 4 * d ^ 2) by ring. assert (0 <= d ^ 4) by (apply pow_le; lra).
    rewrite Rmult_comm. apply Rmult_le_compat_r; [assumption|]. nra. }
  lra.
Qed.

Lemma at_24_upper : sin (10 * PI * (24 / 299)) <= / 2 + sqrt 3 / 2 * (55 * PI / 1794).
Proof.
  pose proof pi_close. pose proof sqrt3_close.
  replace (10 * PI * (24 / 299)) with (PI - (PI / 6 + (55 * PI / 1794))) by field.
  rewrite sin_PI_x, sin_sixth. set (d := 55 * PI / 1794).
  assert (D : 0 <= d <= 1) by (unfold d; lra).
  pose proof (sin_le_x d) as U. pose proof (COS_bound d).
  assert (sqrt 3 / 2 * sin d <= sqrt 3 / 2 * d) by (apply Rmult_le_compat_l; lra).
  lra.
Qed.

Lemma sqrt_between a lo hi : 0 <= lo -> 0 <= hi -> lo * lo < a < hi * hi -> lo < sqrt a < hi.
Proof.
  intros H1 H2 [H3 H4]. split.
  - rewrite <- (sqrt_Rsqr lo) by lra. apply sqrt_lt_1; unfold Rsqr; nra.
  - rewrite <- (sqrt_Rsqr hi) by lra. apply sqrt_lt_1; unfold Rsqr; nra.
Qed.

(** The 26th grid point is lower than the 25th... *)
Lemma c_25_24 : c_val (25 / 299) < c_val (24 / 299).
Proof.
  unfold c_val. pose proof pi_close. pose proof sqrt3_close.
  pose proof at_25_lower. pose proof at_24_upper.
  pose proof (sqrt_between (25 / 299) 0.28915 0.28916). pose proof (sqrt_between (24 / 299) 0.28331 0.28332).
  set (u := sin (10 * PI * (25 / 299))) in *. set (v := sin (10 * PI * (24 / 299))) in *.
  assert (0.4922 <= u) by nra. assert (v <= 0.5838) by nra. lra.
Qed.

(** ... but higher than the curve at a twelfth. *)
Lemma sin_5PI6 : sin (10 * PI * (1 / 12)) = / 2.
Proof. replace (10 * PI * (1 / 12)) with (PI - PI / 6) by field. rewrite sin_PI_x, sin_PI6. lra. Qed.

Lemma c_12_25 : c_val (1 / 12) < c_val (25 / 299).
Proof.
  unfold c_val. rewrite sin_5PI6. pose proof pi_close. pose proof sqrt3_close.
  pose proof at_25_upper as U.
  pose proof (sqrt_between (25 / 299) 0.289157 0.289158). pose proof (sqrt_between (1 / 12) 0.288675 0.288676).
  set (u := sin (10 * PI * (25 / 299))) in *. set (d := 5 * PI / 1794) in *.
  assert (D : 0.00875 <= d <= 0.008782) by (unfold d; lra).
  assert (d ^ 3 / 6 <= 0.0000002) by nra.
  assert (0.008749 <= d - d ^ 3 / 6) by lra.
  assert (0.0075766 <= sqrt 3 / 2 * (d - d ^ 3 / 6)) by nra.
  lra.
Qed.

(** Up to the 25th grid point the curve falls. *)
Lemma c_falls_left s t : 0 <= s -> s <= t -> t <= 1 / 20 -> c_val t <= c_val s.
Proof.
  intros H0 H1 H2. unfold c_val. pose proof pi_close.
  pose proof (sqrt_mono s t).
  assert (0 <= sin (10 * PI * s) <= sin (10 * PI * t)).
  { split; [apply sin_ge_0; nra|]. apply sin_incr_1; nra. }
  assert (s * sin (10 * PI * s) <= t * sin (10 * PI * t)) by (apply Rmult_le_compat; lra).
  lra.
Qed.

Lemma c_falls_right s t : 1 / 20 <= s -> s <= t -> t <= 24 / 299 -> c_val t <= c_val s.
Proof.
  intros H0 H1 H2. unfold c_val. pose proof pi_close as P. pose proof sqrt3_close as Q3.
  pose proof (sqrt_between (24 / 299) 0.28331 0.28332) as Q.
  assert (St : 0 < sqrt t <= 0.28332).
  { split; [apply sqrt_lt_R0; lra|]. pose proof (sqrt_mono t (24 / 299)). lra. }
  assert (Ss : 0 < sqrt s <= sqrt t).
  { split; [apply sqrt_lt_R0; lra|]. apply sqrt_mono. lra. }
  assert (G : 1.76 * (t - s) <= sqrt t - sqrt s).
  { assert (E : t - s = (sqrt t - sqrt s) * (sqrt t + sqrt s)).
    { rewrite <- (sqrt_sqrt t) at 1 by lra. rewrite <- (sqrt_sqrt s) at 1 by lra. ring. }
    rewrite E. nra. }
  set (S := 10 * PI * s). set (T := 10 * PI * t).
  assert (HS : PI / 2 <= S) by (unfold S; nra).
  assert (HT : T <= 5 * PI / 6) by (unfold T; nra).
  assert (ST : S <= T) by (unfold S, T; nra).
  assert (LS : / 2 <= sin S).
  { replace (sin S) with (sin (PI - S)) by apply sin_PI_x.
    replace (/ 2) with (sin (PI / 6)) by (rewrite sin_PI6; lra). apply sin_incr_1; lra. }
  assert (D : sin S - sin T <= sqrt 3 / 2 * (T - S)).
  { rewrite form4. replace ((S - T) / 2) with (- ((T - S) / 2)) by lra. rewrite sin_neg.
    assert (C : - (sqrt 3 / 2) <= cos ((S + T) / 2)).
    { replace (cos ((S + T) / 2)) with (- cos (PI - (S + T) / 2)) by (rewrite cos_minus, cos_PI, sin_PI; ring).
      apply Ropp_le_contravar. rewrite <- cos_PI6. apply cos_decr_1; lra. }
    assert (B : 0 <= sin ((T - S) / 2) <= (T - S) / 2).
    { split; [apply sin_ge_0; lra|apply sin_le_x; lra]. }
    set (c := cos ((S + T) / 2)) in *. set (w := sin ((T - S) / 2)) in *.
    assert (- c * w <= sqrt 3 / 2 * ((T - S) / 2)).
    { assert (- c * w <= sqrt 3 / 2 * w) by (apply Rmult_le_compat_r; lra). nra. }
    lra. }
  assert (M : t * (sin S - sin T) <= t * (sqrt 3 / 2 * (10 * PI)) * (t - s)).
  { replace (t * (sqrt 3 / 2 * (10 * PI)) * (t - s)) with (t * (sqrt 3 / 2 * (T - S))) by (unfold S, T; ring).
    apply Rmult_le_compat_l; lra. }
  assert (K : t * (sqrt 3 / 2 * (10 * PI)) <= 2.2).
  { assert (sqrt 3 / 2 * (10 * PI) <= 27.29) by nra. assert (0 <= sqrt 3 / 2 * (10 * PI)) by nra. nra. }
  assert (M2 : t * (sqrt 3 / 2 * (10 * PI)) * (t - s) <= 2.2 * (t - s)) by (apply Rmult_le_compat_r; lra).
  assert (M3 : / 2 * (t - s) <= (t - s) * sin S) by nra.
  replace (s * sin S) with (t * sin S - (t - s) * sin S) by ring. lra.
Qed.

Lemma c_falls j : (j <= 24)%nat -> c_val (24 / 299) <= c_val (INR j / 299).
Proof.
  intros Hj. assert (B : 0 <= INR j <= 24).
  { split; [apply pos_INR|]. replace 24 with (INR 24) by (rewrite INR_IZR_INZ; reflexivity). now apply le_INR. }
  destruct (Rle_dec (INR j / 299) (1 / 20)) as [L|L].
  - apply Rle_trans with (c_val (1 / 20)); [apply c_falls_right; lra|apply c_falls_left; lra].
  - apply c_falls_right; lra.
Qed.

Lemma descents_keep q p l2 : snd p < snd q -> forall l1 prev, In p (descents prev (l1 ++ q :: p :: l2)).
Proof.
  intros H. destruct p as [px py], q as [qx qy]. cbn [snd] in H.
  induction l1 as [|[x y] l1 IH]; intros prev; cbn [app descents].
  - assert (D : In (px, py) (if Rle_dec qy py then descents py l2 else (px, py) :: descents py l2)).
    { destruct (Rle_dec qy py); [lra|now left]. }
    destruct (Rle_dec prev qy); [exact D|right; exact D].
  - destruct (Rle_dec prev y); [apply IH|right; apply IH].
Qed.

Lemma keep_descents_keep q p l1 l2 : snd p < snd q -> In p (keep_descents (l1 ++ q :: p :: l2)).
Proof.
  intros H. destruct l1 as [|[x y] l1]; cbn [app keep_descents].
  - destruct q as [qx qy], p as [px py]. cbn [snd] in H. right. cbn [descents].
    destruct (Rle_dec qy py); [lra|now left].
  - right. now apply descents_keep.
Qed.

Definition grid_point (i : nat) : R * R := (INR i / 299, c_val (INR i / 299)).

Lemma INR299 : INR (300 - 1) = 299.
Proof. cbn [Nat.sub]. rewrite INR_IZR_INZ. reflexivity. Qed.

Lemma sampled_curve : map (fun x => (x, c_val x)) (points 300) = map grid_point (seq 0 300).
Proof. unfold points. rewrite map_map, INR299. reflexivity. Qed.

Lemma seq_split i n : (S i < n)%nat -> exists l1 l2, seq 0 n = l1 ++ i :: S i :: l2.
Proof.
  intros H. exists (seq 0 i), (seq (S (S i)) (n - S (S i))).
  replace n with (i + (S (S (n - S (S i)))))%nat at 1 by lia. rewrite seq_app. reflexivity.
Qed.

Lemma INR25 : INR 25 = 25. Proof. rewrite INR_IZR_INZ. reflexivity. Qed.
Lemma INR24 : INR 24 = 24. Proof. rewrite INR_IZR_INZ. reflexivity. Qed.

Lemma listed_25 : In (25 / 299, c_val (25 / 299))
  (trim_dominated (keep_descents (map (fun x => (x, c_val x)) (points 300)))).
Proof.
  rewrite sampled_curve. unfold trim_dominated. apply filter_In. split.
  - destruct (seq_split 24 300) as (l1 & l2 & ->); [lia|].
    rewrite map_app. cbn [map].
    replace (25 / 299, c_val (25 / 299)) with (grid_point 25) by (unfold grid_point; rewrite INR25; reflexivity).
    apply keep_descents_keep. unfold grid_point. cbn [snd]. rewrite INR25, INR24. apply c_25_24.
  - apply Bool.negb_true_iff. apply Bool.not_true_iff_false. intros E. apply existsb_exists in E.
    destruct E as (q & Hq & D). apply dominates2_spec in D. cbn [fst snd] in D. destruct D as (D1 & D2 & N).
    apply keep_descents_in, in_map_iff in Hq. destruct Hq as (j & <- & _). cbn [fst snd grid_point] in *.
    assert (J : INR j <= INR 25) by (rewrite INR25; lra). apply INR_le in J.
    destruct (Nat.eq_dec j 25) as [->|NJ].
    + apply N. unfold grid_point. now rewrite INR25.
    + pose proof (c_falls j ltac:(lia)). pose proof c_25_24. lra.
Qed.

(** A listed point that the curve passes below on the left. *)
Lemma ZDT3_dominated : exists fr p f,
  p_front ZDT3 = Some fr /\ In p fr /\ attainable ZDT3 f /\ better f p.
Proof.
  eexists. exists [25 / 299; c_val (25 / 299)], [1 / 12; c_val (1 / 12)].
  split; [apply ZDT3_front|]. split; [|split].
  - apply in_map_iff. exists (25 / 299, c_val (25 / 299)). split; [reflexivity|apply listed_25].
  - exact (cv_reach _ _ _ ZDT3_curve (1 / 12) ltac:(lra)).
  - pose proof c_12_25. split; [apply Forall2_pair; lra|]. intros E. injection E. lra.
Qed.

(** ** What the sample covers *)

Inductive rising : list (R * R) -> Prop :=
| rising_nil : rising []
| rising_cons p l : (forall q, In q l -> fst p <= fst q) -> rising l -> rising (p :: l).

Lemma descents_cover l : rising l -> forall prev b, snd b <= prev ->
  (forall q, In q l -> fst b <= fst q) ->
  forall p, In p l -> exists q, (q = b \/ In q (descents prev l)) /\ fst q <= fst p /\ snd q <= snd p.
Proof.
  induction 1 as [|[x y] l Hx R IH]; intros prev b Hb Hl p Hp; [contradiction|].
  cbn [descents]. destruct (Rle_dec prev y) as [L|L].
  - destruct Hp as [<-|Hp].
    + exists b. split; [now left|]. split; [apply Hl; now left|]. cbn. lra.
    + apply (IH y b); [lra|intros q Hq; apply Hl; now right|assumption].
  - destruct Hp as [<-|Hp].
    + exists (x, y). split; [right; now left|]. cbn; lra.
    + destruct (IH y (x, y)) with (p := p) as (q & Hq & Q); [cbn; lra|assumption|assumption|].
      exists q. split; [|assumption]. right. destruct Hq as [->|Hq]; [now left|now right].
Qed.

Lemma keep_cover l : rising l -> forall p, In p l ->
  exists q, In q (keep_descents l) /\ fst q <= fst p /\ snd q <= snd p.
Proof.
  intros R p Hp. destruct R as [|[x y] l Hx R]; [contradiction|]. cbn [keep_descents].
  destruct Hp as [<-|Hp]; [exists (x, y); split; [now left|lra]|].
  destruct (descents_cover l R y (x, y)) with (p := p) as (q & Hq & Q); [cbn; lra|assumption|assumption|].
  exists q. split; [|assumption]. destruct Hq as [->|Hq]; [now left|now right].
Qed.

Lemma trim_cover l : forall n p, In p l -> (length (filter (fun q => dominates2 q p) l) <= n)%nat ->
  exists q, In q (trim_dominated l) /\ fst q <= fst p /\ snd q <= snd p.
Proof.
  induction n as [|n IH]; intros p Hp H.
  - exists p. split; [|lra]. unfold trim_dominated. apply filter_In. split; [assumption|].
    apply Bool.negb_true_iff, Bool.not_true_iff_false. intros E. apply existsb_exists in E. destruct E as (q & Hq & D).
    assert (I : In q (filter (fun q => dominates2 q p) l)) by (apply filter_In; tauto).
    destruct (filter (fun q => dominates2 q p) l); [contradiction|cbn in H; lia].
  - destruct (existsb (fun q => dominates2 q p) l) eqn:E.
    + apply existsb_exists in E. destruct E as (q & Hq & D).
      assert (T : forall r, dominates2 r q = true -> dominates2 r p = true).
      { intros r Hr. apply dominates2_spec in Hr, D. apply dominates2_spec.
        destruct r as [a b], q as [c d], p as [e f]. cbn [fst snd] in *.
        split; [lra|]. split; [lra|]. intros E. injection E as -> ->.
        apply (proj2 (proj2 D)). f_equal; lra. }
      assert (S : dominates2 q q = false).
      { apply Bool.not_true_iff_false. intros Q. apply dominates2_spec in Q. tauto. }
      assert (L : (length (filter (fun r => dominates2 r q) l) < length (filter (fun r => dominates2 r p) l))%nat).
      { clear - Hq D T S. induction l as [|r l IHl]; [contradiction|]. cbn [filter].
        assert (Le : forall l', (length (filter (fun r => dominates2 r q) l') <= length (filter (fun r => dominates2 r p) l'))%nat).
        { induction l' as [|z l' I']; cbn; [lia|]. destruct (dominates2 z q) eqn:Z.
          - rewrite (T z Z). cbn. lia.
          - destruct (dominates2 z p); cbn; lia. }
        destruct Hq as [->|Hq].
        - rewrite S, D. cbn. specialize (Le l). lia.
        - specialize (IHl Hq). destruct (dominates2 r q) eqn:Z; [rewrite (T r Z); cbn; lia|].
          destruct (dominates2 r p); cbn; lia. }
      destruct (IH q Hq ltac:(lia)) as (z & Hz & Z1 & Z2). exists z. split; [assumption|].
      apply dominates2_spec in D. lra.
    + exists p. split; [|lra]. unfold trim_dominated. apply filter_In. split; [assumption|]. now rewrite E.
Qed.

Lemma grid_rising n : forall k, rising (map grid_point (seq k n)).
Proof.
  induction n as [|n IH]; intros k; cbn [seq map]; constructor; [|apply IH].
  intros q Hq. apply in_map_iff in Hq. destruct Hq as (j & <- & Hj). apply in_seq in Hj. cbn [fst grid_point].
  assert (INR k <= INR j) by (apply le_INR; lia). lra.
Qed.

Lemma sample_cover i : (i < 300)%nat -> exists q,
  In q (trim_dominated (keep_descents (map (fun x => (x, c_val x)) (points 300)))) /\
  fst q <= INR i / 299 /\ snd q <= c_val (INR i / 299).
Proof.
  intros Hi. rewrite sampled_curve.
  destruct (keep_cover _ (grid_rising 300 0) (grid_point i)) as (q & Hq & Q1 & Q2).
  { apply in_map. apply in_seq. lia. }
  destruct (trim_cover _ _ q Hq (Nat.le_refl _)) as (r & Hr & R1 & R2).
  exists r. split; [assumption|]. cbn [fst snd grid_point] in *. lra.
Qed.

(** Second differences of the curve. *)
Lemma c_second t h : 0 <= h -> 0.043 <= t - h -> t + h <= 1 + 1 / 299 -> 0 <= t <= 1 ->
  c_val (t + h) + c_val (t - h) - 2 * c_val t <= 1090 * (h * h).
Proof.
  intros Hh Ht H1 Ht1. unfold c_val. pose proof pi_close as P.
  set (a := sqrt (t + h)). set (b := sqrt (t - h)). set (c := sqrt t).
  assert (B : 0.207 < b) by (unfold b; apply (sqrt_between (t - h) 0.207 2); lra).
  assert (C : b <= c) by (unfold b, c; apply sqrt_mono; lra).
  assert (A : c <= a) by (unfold c, a; apply sqrt_mono; lra).
  assert (Ea : a * a = t + h) by (unfold a; apply sqrt_sqrt; lra).
  assert (Eb : b * b = t - h) by (unfold b; apply sqrt_sqrt; lra).
  assert (Ec : c * c = t) by (unfold c; apply sqrt_sqrt; lra).
  assert (Q : 2 * c - a - b <= 30 * (h * h)).
  { assert (X : (2 * c - a - b) * ((c + b) * (a + c) * (a + b)) = 2 * (h * h)).
    { assert (h = (a - c) * (a + c)) by lra. assert (h = (c - b) * (c + b)) by lra.
      assert (2 * h = (a - b) * (a + b)) by lra.
      replace ((2 * c - a - b) * ((c + b) * (a + c) * (a + b)))
        with (((c - b) * (c + b)) * ((a + c) * (a + b)) - ((a - c) * (a + c)) * ((c + b) * (a + b))) by ring.
      rewrite <- H0, <- H. replace (h * ((a + c) * (a + b)) - h * ((c + b) * (a + b))) with (h * ((a - b) * (a + b))) by ring.
      rewrite <- H2. ring. }
    assert (G : 0.07 <= (c + b) * (a + c) * (a + b)).
    { assert (0.414 <= c + b) by lra. assert (0.414 <= a + c) by lra. assert (0.414 <= a + b) by lra.
      assert (0.17 <= (c + b) * (a + c)) by nra. nra. }
    set (D := (c + b) * (a + c) * (a + b)) in *.
    destruct (Rle_dec (2 * c - a - b) (30 * (h * h))) as [|N]; [assumption|]. exfalso.
    assert (0 <= h * h) by nra.
    assert (30 * (h * h) * D <= (2 * c - a - b) * D) by (apply Rmult_le_compat_r; lra). nra. }
  set (T := 10 * PI * t). set (E := 10 * PI * h).
  replace (10 * PI * (t + h)) with (T + E) by (unfold T, E; ring).
  replace (10 * PI * (t - h)) with (T - E) by (unfold T, E; ring).
  rewrite sin_plus, sin_minus.
  assert (HE : 0 <= E <= 31.5 * h) by (unfold E; nra).
  assert (CE : 1 - E * E / 2 <= cos E).
  { replace (cos E) with (cos (2 * (E / 2))) by (f_equal; field). rewrite cos_2a_sin.
    assert (S : sin (E / 2) * sin (E / 2) <= E / 2 * (E / 2)).
    { assert (Rabs (sin (E / 2)) <= E / 2).
      { apply Rabs_le. pose proof (sin_le_x (E / 2) ltac:(lra)). split; [|lra].
        destruct (Rle_dec (E / 2) PI) as [L|L].
        - pose proof (sin_ge_0 (E / 2)). lra.
        - pose proof (SIN_bound (E / 2)). lra. }
      replace (sin (E / 2) * sin (E / 2)) with (Rabs (sin (E / 2)) * Rabs (sin (E / 2))).
      2: { rewrite <- Rabs_mult. apply Rabs_pos_eq. nra. }
      pose proof (Rabs_pos (sin (E / 2))). nra. }
    lra. }
  assert (SE : 0 <= sin E + E /\ sin E <= E).
  { split; [|apply sin_le_x; lra]. destruct (Rle_dec E PI) as [L|L].
    - pose proof (sin_ge_0 E). lra.
    - pose proof (SIN_bound E). lra. }
  pose proof (SIN_bound T) as BT. pose proof (COS_bound T) as CT. pose proof (COS_bound E) as BE.
  assert (F : 2 * (t * sin T) * (1 - cos E) <= E * E).
  { assert (-1 <= t * sin T <= 1) by (split; nra).
    assert (2 * (t * sin T) * (1 - cos E) <= 2 * (1 - cos E)) by nra. lra. }
  assert (G : - (2 * h * (cos T * sin E)) <= 2 * h * E).
  { assert (- (cos T * sin E) <= E).
    { destruct SE. assert (-E <= cos T * sin E <= E); [|lra]. split; nra. }
    replace (- (2 * h * (cos T * sin E))) with (2 * h * - (cos T * sin E)) by ring. apply Rmult_le_compat_l; lra. }
  assert (EE : E * E <= 992.25 * (h * h)) by nra.
  assert (HE2 : 2 * h * E <= 63 * (h * h)) by nra.
  lra.
Qed.

Lemma c_continuous x : 0 <= x -> continuity_pt c_val x.
Proof.
  intros H. unfold c_val.
  assert (S : continuity_pt (fun x => 10 * PI * x) x).
  { apply derivable_continuous_pt. apply derivable_pt_mult; [apply derivable_pt_const|apply derivable_pt_id]. }
  apply continuity_pt_minus; [apply continuity_pt_minus|].
  - apply derivable_continuous_pt, derivable_pt_const.
  - now apply continuity_pt_sqrt.
  - apply continuity_pt_mult; [apply derivable_continuous_pt, derivable_pt_id|].
    apply (continuity_pt_comp (fun x => 10 * PI * x) sin); [assumption|apply continuity_sin].
Qed.

Lemma ZDT3_covers : front_covers (1 / 80) ZDT3.
Proof.
  apply (curve_covers _ _ _ _ _ ZDT3_curve ZDT3_front). intros s Hs.
  destruct (continuity_ab_min c_val 0 s) as (t & Hmin & Ht); [lra|intros c Hc; apply c_continuous; lra|].
  destruct (points_above 300 t) as (p & Hp & L1 & L2); [lia|lra|]. pose proof (points_in 300 p ltac:(lia) Hp) as Bp.
  rewrite INR299 in L2.
  assert (C : c_val p <= c_val t + 1 / 80).
  { destruct (Rle_dec p (1 / 20)) as [L|L].
    - pose proof (c_falls_left t p). lra.
    - pose proof (c_second t (p - t)) as Q. replace (t + (p - t)) with p in Q by ring.
      assert (c_val t <= c_val (t - (p - t))) by (apply Hmin; lra).
      assert ((p - t) * (p - t) <= 1 / 299 * (1 / 299)) by nra. lra. }
  apply in_map_iff in Hp. destruct Hp as (i & <- & Hi). apply in_seq in Hi. rewrite INR299 in *.
  destruct (sample_cover i ltac:(lia)) as (q & Hq & Q1 & Q2).
  exists (fst q), (snd q). split; [apply in_map_iff; exists q; split; [reflexivity|assumption]|].
  pose proof (Hmin s ltac:(lra)) as M. unfold c_val in M, C, Q2. fold (c_val s) in *. unfold c_val in *. lra.
Qed.
