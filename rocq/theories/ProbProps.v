(** C110, C111, C112: the benchmark problems and their published Pareto fronts. *)
From Coq Require Import Reals List Lra Lia Psatz.
From Verif Require Import ProbModel ProbSpec ProbProofs ProbCurve ProbMore ProbZdt3 ProbCover ProbZdt6 ProbRotModel ProbRotProofs.
Import ListNotations.
Local Open Scope R_scope.

(** ** C110: published fronts are attainable and optimal *)

(** True of eleven problems. *)
Theorem C110_fronts_optimal_partial :
  Forall front_optimal [ZDT1; ZDT2; ZDT4; ZDT6; UF1; UF2; UF3; UF4; UF5; UF7; ackley].
Proof.
  repeat (apply Forall_cons); [..|apply Forall_nil].
  - apply sqrt_front_optimal; [apply ZDT1_curve|reflexivity].
  - apply (sq_front_optimal _ (fun x => 1 - x * x)); [reflexivity|apply ZDT2_curve|reflexivity].
  - apply sqrt_front_optimal; [apply ZDT4_curve|reflexivity].
  - apply ZDT6_optimal.
  - apply sqrt_front_optimal; [apply UF1_curve|reflexivity].
  - apply sqrt_front_optimal; [apply UF2_curve|reflexivity].
  - apply sqrt_front_optimal; [apply UF3_curve|reflexivity].
  - apply (sq_front_optimal _ (fun x => 1 - x ^ 2)); [intros; ring|apply UF4_curve|reflexivity].
  - apply UF5_optimal.
  - apply UF7_optimal.
  - apply ackley_optimal.
Qed.
Print Assumptions C110_fronts_optimal_partial.

(** ZDT3: the listed points are attainable, none dominates another, and whatever is attained
    lies above the curve they are taken from. *)
Theorem C110_zdt3_partial :
  exists fr, p_front ZDT3 = Some fr /\
    (forall p, In p fr -> attainable ZDT3 p) /\
    (forall p q, In p fr -> In q fr -> ~ better p q) /\
    forall f, attainable ZDT3 f -> exists t, 0 <= t <= 1 /\
      attainable ZDT3 [t; 1 - sqrt t - t * sin (10 * PI * t)] /\
      Forall2 Rle [t; 1 - sqrt t - t * sin (10 * PI * t)] f.
Proof.
  eexists. split; [apply ZDT3_front|]. split; [|split].
  - intros p Hp. apply in_map_iff in Hp. destruct Hp as (q & <- & Hq).
    unfold trim_dominated in Hq. apply filter_In in Hq. destruct Hq as [Hq _].
    apply keep_descents_in in Hq. apply in_map_iff in Hq. destruct Hq as (t & <- & Ht).
    apply points_in in Ht; [|lia]. exact (cv_reach _ _ _ ZDT3_curve t Ht).
  - intros p q Hp Hq (D & N). apply in_map_iff in Hp, Hq.
    destruct Hp as (p' & <- & Hp). destruct Hq as (q' & <- & Hq).
    apply Forall2_pair in D. apply (trim_mutual _ _ _ Hp Hq).
    split; [tauto|]. split; [tauto|]. intros E. apply N. now rewrite E.
  - intros f Hf. destruct (curve_below _ _ _ _ ZDT3_curve Hf) as (t & f1 & f2 & Ht & -> & L1 & L2).
    exists t. split; [assumption|]. split; [exact (cv_reach _ _ _ ZDT3_curve t Ht)|].
    now apply Forall2_pair.
Qed.
Print Assumptions C110_zdt3_partial.

(** But a listed point need not be optimal: the last grid point of a segment lies beyond the
    minimum of the curve (the 26th at 25/299; the curve is lower at 1/12). *)
Theorem C110_zdt3_refuted :
  exists fr p f, p_front ZDT3 = Some fr /\ In p fr /\ attainable ZDT3 f /\ better f p.
Proof. exact ZDT3_dominated. Qed.
Print Assumptions C110_zdt3_refuted.

(** UF11 lists a point that is dominated by a wide margin: whatever the rest of the data file
    says, line 4740 is not optimal (the code takes the sine of the variable where the benchmark
    takes the sine of the variable times pi/2). *)
Theorem C110_uf11_refuted front :
  In [1.5640030; 1.6181911; 1.3396089; 1.2757324; 1.3292077] front ->
  exists f, attainable (UF11 front) f /\
    better f [1.5640030; 1.6181911; 1.3396089; 1.2757324; 1.3292077].
Proof. intros _. apply UF11_dominated. Qed.
Print Assumptions C110_uf11_refuted.

(** UF6 lists points that no admissible vector attains: [numpy.arange] runs past the end
    of each segment, in the last one even past 1. *)
Theorem C110_uf6_refuted :
  exists fr p, p_front UF6 = Some fr /\ In p fr /\ ~ attainable UF6 p.
Proof.
  set (x := (2 * INR 30 - 1) / (2 * 30) + 3 * p_step).
  exists ([0; 1] :: map (fun x => [x; 1 - x]) uf6_points), [x; 1 - x].
  split; [reflexivity|]. split.
  - right. apply in_map_iff. exists x. split; [reflexivity|]. unfold uf6_points.
    apply in_flat_map. exists 30%nat. split; [apply in_seq; lia|].
    unfold arange4. right. right. right. left. reflexivity.
  - intros H. destruct (curve_below _ _ _ _ UF6_curve H) as (t & f1 & f2 & Ht & E & L1 & L2).
    injection E as <- <-.
    assert (0 <= pen6 t) by (unfold pen6; apply Rmax_l).
    assert (X : 1 < x) by (unfold x, p_step; rewrite INR30; lra). lra.
Qed.
Print Assumptions C110_uf6_refuted.

(** UF9 lists points with a negative second objective, which nothing attains. *)
Theorem C110_uf9_refuted :
  exists fr p, p_front UF9 = Some fr /\ In p fr /\ ~ attainable UF9 p.
Proof.
  eexists. exists [1; 1 - 1 - 1; 1]. split; [reflexivity|]. split.
  - apply in_map_iff. exists (1, 1). split; [reflexivity|]. apply filter_In. split.
    + assert (P1 : In 1 (points 12)).
      { replace 1 with (INR 11 / 11) by (rewrite INR_IZR_INZ; cbn; lra). apply point12. lia. }
      now apply in_grid12.
    + cbn [fst snd]. destruct (Rle_dec 1 (0.25 * (1 - 1))); [reflexivity|].
      destruct (Rle_dec (0.75 * (1 - 1)) 1); [reflexivity|lra].
  - intros (x & Hx & E). destruct (adm3 UF9 _ eq_refl Hx) as (x0 & x1 & r & -> & H0 & H1 & L).
    destruct (UF9_eval x0 x1 r L) as (v1 & v2 & v3 & P1 & P2 & P3 & E').
    pose proof (evaluates_unique _ _ _ _ E E') as Q. injection Q as _ Q _.
    assert (0 <= uf9_bump x0) by (unfold uf9_bump; apply Rmax_l).
    assert (0 <= 0.5 * (uf9_bump x0 - 2 * x0 + 2) * x1) by (apply Rmult_le_pos; lra). lra.
Qed.
Print Assumptions C110_uf9_refuted.

(** UF8 and UF10 list points that attainable points dominate: the third coordinate is a
    cube root where the sphere has a square root. *)
Theorem C110_uf8_uf10_refuted : forall P, P = UF8 \/ P = UF10 ->
  exists fr p f, p_front P = Some fr /\ In p fr /\ attainable P f /\ better f p.
Proof.
  assert (G : forall b, base3 b -> exists fr p f, p_front (sphere_problem b) = Some fr /\
    In p fr /\ attainable (sphere_problem b) f /\ better f p).
  { intros b B. eexists.
    exists [INR 1 / 11; INR 0 / 11; rpow (- (INR 1 / 11) ^ 2 - (INR 0 / 11) ^ 2 + 1) (1 / 3)].
    exists [INR 1 / 11; INR 0 / 11; sqrt (120 / 121)]. split; [apply sphere_front_eq|].
    assert (E : - (INR 1 / 11) ^ 2 - (INR 0 / 11) ^ 2 + 1 = 120 / 121) by (cbn [INR]; field).
    split; [|split].
    - apply in_map_iff. exists (INR 1 / 11, INR 0 / 11). split; [reflexivity|]. apply filter_In.
      split; [apply in_grid12; apply point12; lia|]. cbn [fst snd].
      destruct (Rle_dec ((INR 1 / 11) ^ 2 + (INR 0 / 11) ^ 2) 1); [reflexivity|lra].
    - apply sphere_point; [assumption|cbn [INR]; lra|cbn [INR]; lra|apply sqrt_pos|].
      rewrite <- (Rsqr_pow2 (sqrt _)), Rsqr_sqrt by lra. cbn [INR]. field.
    - rewrite E. assert (L : sqrt (120 / 121) < rpow (120 / 121) (1 / 3)) by (apply cube_root_bigger; lra).
      split.
      + apply Forall2_triple. lra.
      + intros Q. injection Q as Q. lra. }
  intros P [-> | ->]; [apply (G _ uf8_base3)|apply (G _ uf10_base3)].
Qed.
Print Assumptions C110_uf8_uf10_refuted.

(** With the square root in its place, every listed point would be attainable and optimal. *)
Theorem C110_uf8_uf10_partial : forall P fr x y z, P = UF8 \/ P = UF10 ->
  p_front P = Some fr -> In [x; y; z] fr ->
  attainable P [x; y; sqrt (1 - x ^ 2 - y ^ 2)] /\
  forall f, attainable P f -> ~ better f [x; y; sqrt (1 - x ^ 2 - y ^ 2)].
Proof.
  assert (G : forall b fr x y z, base3 b -> p_front (sphere_problem b) = Some fr -> In [x; y; z] fr ->
    attainable (sphere_problem b) [x; y; sqrt (1 - x ^ 2 - y ^ 2)] /\
    forall f, attainable (sphere_problem b) f -> ~ better f [x; y; sqrt (1 - x ^ 2 - y ^ 2)]).
  { intros b fr x y z B E I. cbn [p_front sphere_problem] in E. rewrite sphere_front_eq in E.
    apply some_inj in E. rewrite <- E in I. clear E. apply in_map_iff in I. destruct I as ([x' y'] & E & I). cbn [fst snd] in E.
    injection E as -> -> _. apply filter_In in I. cbn [fst snd] in I. destruct I as [I D].
    destruct (Rle_dec (x ^ 2 + y ^ 2) 1) as [L|]; [|discriminate].
    unfold grid12 in I. apply in_prod_iff in I. destruct I as [Ix Iy].
    apply points_in in Ix; [|lia]. apply points_in in Iy; [|lia].
    assert (S : x ^ 2 + y ^ 2 + sqrt (1 - x ^ 2 - y ^ 2) ^ 2 = 1).
    { rewrite <- (Rsqr_pow2 (sqrt _)), Rsqr_sqrt by lra. lra. }
    split.
    - apply sphere_point; try assumption; try lra. apply sqrt_pos.
    - intros f Hf. apply (sphere_optimal b); try assumption; try lra. apply sqrt_pos. }
  intros P fr x y z [-> | ->]; [exact (G uf8_base fr x y z uf8_base3)|exact (G uf10_base fr x y z uf10_base3)].
Qed.
Print Assumptions C110_uf8_uf10_partial.

(** EWA1 and EWA2 list the origin, which nothing attains. *)
Theorem C110_ewa_refuted : forall P, P = EWA1 \/ P = EWA2 ->
  p_front P = Some [[0; 0]] /\ ~ attainable P [0; 0].
Proof.
  intros P [-> | ->]; (split; [reflexivity|]); intros (x & Hx & E).
  - destruct (adm_two EWA1 0 1 x eq_refl Hx) as (a & b & -> & _ & _).
    unfold evaluates in E.
    pose proof (f_equal (fun l => nth 0 l None) E) as E1.
    pose proof (f_equal (fun l => nth 1 l None) E) as E2.
    cbn [nth map p_fits EWA1 EWA2 get nth_error bind] in E1, E2. injection E1 as E1. injection E2 as E2.
    pose proof (sin2_cos2 25) as Q. unfold Rsqr in Q. pose proof sin_25 as N1. pose proof cos_25 as N2.
    assert (Z : (a - 0.5) * (b - 0.5) = 0) by nra.
    apply Rmult_integral in Z. destruct Z as [Z|Z].
    + replace (50 * a) with 25 in E1 by lra. pose proof (cos_in (50 * b)).
      assert (sin 25 * sin 25 < 1) by (assert (0 < cos 25 * cos 25) by (apply Rsqr_pos_lt; assumption); lra).
      set (s := sin 25) in *. set (c := cos (50 * b)) in *.
      assert ((s * c) * (s * c) = 1) by (replace (s * c) with (-1) by lra; lra).
      assert (0 <= c * c <= 1) by nra. nra.
    + replace (50 * b) with 25 in E1 by lra. pose proof (sin_in (50 * a)).
      assert (cos 25 * cos 25 < 1) by (assert (0 < sin 25 * sin 25) by (apply Rsqr_pos_lt; assumption); lra).
      set (s := cos 25) in *. set (c := sin (50 * a)) in *.
      assert ((c * s) * (c * s) = 1) by (replace (c * s) with (-1) by lra; lra).
      assert (0 <= c * c <= 1) by nra. nra.
  - destruct (adm_two EWA2 0 1 x eq_refl Hx) as (a & b & -> & _ & _).
    unfold evaluates in E.
    pose proof (f_equal (fun l => nth 0 l None) E) as E1.
    pose proof (f_equal (fun l => nth 1 l None) E) as E2.
    cbn [nth map p_fits EWA1 EWA2 get nth_error bind] in E1, E2. injection E1 as E1. injection E2 as E2.
    (* with u = 10 a and v = 10 b the four factors are the sine and cosine of 5u, 3u, 3v, 5v *)
    set (s5 := sin (50 * a)) in *. set (s3' := sin (30 * a)) in *.
    set (c3 := cos (30 * b)) in *. set (c5 := cos (50 * b)) in *.
    pose proof (sin_in (50 * a)) as I1. pose proof (sin_in (30 * a)) as I2.
    pose proof (cos_in (30 * b)) as I3. pose proof (cos_in (50 * b)) as I4.
    fold s5 in I1. fold s3' in I2. fold c3 in I3. fold c5 in I4.
    assert (Q1 : s5 * s5 = 1).
    { assert ((s5 * c3) * (s5 * c3) = 1) by (replace (s5 * c3) with (-1) by lra; lra).
      assert (0 <= s5 * s5 <= 1) by nra. assert (0 <= c3 * c3 <= 1) by nra. nra. }
    assert (Q3 : c3 * c3 = 1).
    { assert ((s5 * c3) * (s5 * c3) = 1) by (replace (s5 * c3) with (-1) by lra; lra).
      assert (0 <= s5 * s5 <= 1) by nra. assert (0 <= c3 * c3 <= 1) by nra. nra. }
    assert (Q2 : s3' * s3' = 1).
    { assert ((s3' * c5) * (s3' * c5) = 1) by (replace (s3' * c5) with (-1) by lra; lra).
      assert (0 <= s3' * s3' <= 1) by nra. assert (0 <= c5 * c5 <= 1) by nra. nra. }
    assert (Q4 : c5 * c5 = 1).
    { assert ((s3' * c5) * (s3' * c5) = 1) by (replace (s3' * c5) with (-1) by lra; lra).
      assert (0 <= s3' * s3' <= 1) by nra. assert (0 <= c5 * c5 <= 1) by nra. nra. }
    pose proof (sin2_cos2 (50 * a)) as T1. pose proof (sin2_cos2 (30 * a)) as T2.
    pose proof (sin2_cos2 (30 * b)) as T3. pose proof (sin2_cos2 (50 * b)) as T4.
    unfold Rsqr in *. fold s5 in T1. fold s3' in T2. fold c3 in T3. fold c5 in T4.
    assert (Z1 : cos (50 * a) = 0) by nra. assert (Z2 : cos (30 * a) = 0) by nra.
    assert (Z3 : sin (30 * b) = 0) by nra. assert (Z4 : sin (50 * b) = 0) by nra.
    assert (P20 : cos (20 * a) = s5 * s3').
    { replace (20 * a) with (50 * a - 30 * a) by ring. rewrite cos_minus. fold s5. fold s3'. rewrite Z1. ring. }
    assert (P80 : cos (80 * a) = - (s5 * s3')).
    { replace (80 * a) with (50 * a + 30 * a) by ring. rewrite cos_plus. fold s5. fold s3'. rewrite Z1. ring. }
    assert (D80 : forall t, cos (80 * t) = 2 * (2 * cos (20 * t) * cos (20 * t) - 1) * (2 * cos (20 * t) * cos (20 * t) - 1) - 1).
    { intros t. replace (80 * t) with (2 * (2 * (20 * t))) by ring. rewrite (cos_2a_cos (2 * (20 * t))).
      rewrite (cos_2a_cos (20 * t)). ring. }
    assert (V20 : cos (20 * b) = c5 * c3).
    { replace (20 * b) with (50 * b - 30 * b) by ring. rewrite cos_minus. fold c5. fold c3. rewrite Z3. ring. }
    assert (V80 : cos (80 * b) = c5 * c3).
    { replace (80 * b) with (50 * b + 30 * b) by ring. rewrite cos_plus. fold c5. fold c3. rewrite Z3. ring. }
    pose proof (D80 a) as DA. pose proof (D80 b) as DB. rewrite P20, P80 in DA. rewrite V20, V80 in DB.
    assert (A2 : (s5 * s3') * (s5 * s3') = 1) by (replace ((s5 * s3') * (s5 * s3')) with ((s5 * s5) * (s3' * s3')) by ring; rewrite Q1, Q2; ring).
    assert (B2 : (c5 * c3) * (c5 * c3) = 1) by (replace ((c5 * c3) * (c5 * c3)) with ((c5 * c5) * (c3 * c3)) by ring; rewrite Q3, Q4; ring).
    assert (A1 : s5 * s3' = -1).
    { replace (2 * (s5 * s3') * (s5 * s3')) with (2 * ((s5 * s3') * (s5 * s3'))) in DA by ring. rewrite A2 in DA. lra. }
    assert (B1 : c5 * c3 = 1).
    { replace (2 * (c5 * c3) * (c5 * c3)) with (2 * ((c5 * c3) * (c5 * c3))) in DB by ring. rewrite B2 in DB. lra. }
    assert (F : (s5 * c3) * (s3' * c5) = -1).
    { replace ((s5 * c3) * (s3' * c5)) with ((s5 * s3') * (c5 * c3)) by ring. rewrite A1, B1. ring. }
    replace (s5 * c3) with (-1) in F by lra. replace (s3' * c5) with (-1) in F by lra. lra.
Qed.
Print Assumptions C110_ewa_refuted.

(** A published point and an attainable one it dominates. *)
Example C110_example :
  exists g, attainable ZDT2 [0; g] /\ better [0; 1 - 0 * 0] [0; g] /\
  exists fr, p_front ZDT2 = Some fr /\ In [0; 1 - 0 * 0] fr.
Proof.
  exists ((1 + 0.3103448275862069 * (INR 29 * 1)) * (1 - (0 / (1 + 0.3103448275862069 * (INR 29 * 1))) ^ 2)).
  assert (G : INR 29 = 29) by (rewrite INR_IZR_INZ; reflexivity). rewrite G.
  split; [|split].
  - exists (0 :: map (fun _ => 1) (seq 0 29)). split.
    + apply (adm_make 0 1 29 ZDT2 0 (fun _ => 1) 0%nat); [reflexivity|lra|intros; lra].
    + unfold evaluates, ZDT2, emoa, subfit1, subfit2. cbn [map p_fits].
      cbn [tl get nth_error bind]. unfold ga at 1. rewrite (msum_const R Some 1).
      * rewrite map_length, seq_length, G. cbn [bind f1a]. unfold f1a, hb. cbn [bind].
        rewrite div_ok by lra. reflexivity.
      * intros a Ha. apply in_map_iff in Ha. destruct Ha as (_ & <- & _). reflexivity.
  - split; [apply Forall2_pair; split; lra|]. intros E. injection E as E. lra.
  - eexists. split; [reflexivity|]. apply in_map_iff. exists 0. split; [reflexivity|].
    apply points_0. lia.
Qed.

(** ** C111: published fronts cover what can be attained *)

(** Within the resolution of the published sample.  (ZDT3: grid of 300 points, error of second
    order; UF9: grid of 12 points per axis; ZDT6: its first objective is steep
    between neighbours of the sample.)  Missing: kursawe, UF11 and UF12. *)
Theorem C111_fronts_cover_partial :
  Forall (front_covers (1 / 149)) [ZDT1; ZDT2; ZDT4; UF1; UF2; UF3; UF4; UF7; UF6] /\
  Forall (front_covers 0) [UF5; ackley; EWA1; EWA2] /\
  front_covers (1 / 80) ZDT3 /\ front_covers (1 / 11) UF9 /\ front_covers (1 / 8) ZDT6.
Proof.
  repeat split; repeat (apply Forall_cons); try apply Forall_nil.
  - apply sqrt_front_covers; [apply ZDT1_curve|reflexivity].
  - apply (sq_front_covers _ (fun x => 1 - x * x)); [reflexivity|apply ZDT2_curve|reflexivity].
  - apply sqrt_front_covers; [apply ZDT4_curve|reflexivity].
  - apply sqrt_front_covers; [apply UF1_curve|reflexivity].
  - apply sqrt_front_covers; [apply UF2_curve|reflexivity].
  - apply sqrt_front_covers; [apply UF3_curve|reflexivity].
  - apply (sq_front_covers _ (fun x => 1 - x ^ 2)); [intros; ring|apply UF4_curve|reflexivity].
  - apply UF7_covers.
  - apply UF6_covers.
  - apply UF5_covers.
  - apply ackley_covers.
  - apply EWA_covers. now left.
  - apply EWA_covers. now right.
  - apply ZDT3_covers.
  - apply UF9_covers.
  - apply ZDT6_covers.
Qed.
Print Assumptions C111_fronts_cover_partial.

(** UF8 and UF10, whose objectives lie between 0 and 1 on the true front: not even within 0.29.
    (Cube root in place of the square root and a coarse grid: near the plane of the first two
    objectives the listed points are far above the sphere.) *)
Theorem C111_uf8_uf10_refuted : ~ front_covers 0.29 UF8 /\ ~ front_covers 0.29 UF10.
Proof. split; [apply (sphere_not_covered _ uf8_base3)|apply (sphere_not_covered _ uf10_base3)]. Qed.
Print Assumptions C111_uf8_uf10_refuted.

(** ** C112: the objectives are defined on the whole search space *)

Theorem C112_objectives_defined :
  Forall objectives_defined
    [ZDT1; ZDT2; ZDT3; ZDT4; ZDT6; UF1; UF2; UF3; UF4; UF5; UF6; UF7; UF8; UF9; UF10;
     ackley; EWA1; EWA2; kursawe].
Proof.
  repeat (apply Forall_cons); [..|apply Forall_nil].
  - apply (curve_defined _ _ _ ZDT1_curve).
  - apply (curve_defined _ _ _ ZDT2_curve).
  - apply (curve_defined _ _ _ ZDT3_curve).
  - apply (curve_defined _ _ _ ZDT4_curve).
  - apply (curve_defined _ _ _ ZDT6_curve).
  - apply (curve_defined _ _ _ UF1_curve).
  - apply (curve_defined _ _ _ UF2_curve).
  - apply (curve_defined _ _ _ UF3_curve).
  - apply (curve_defined _ _ _ UF4_curve).
  - apply (curve_defined _ _ _ UF5_curve).
  - apply (curve_defined _ _ _ UF6_curve).
  - apply (curve_defined _ _ _ UF7_curve).
  - intros x Hx. destruct (sphere_below _ _ uf8_base3 Hx) as (x0 & x1 & f1 & f2 & f3 & _ & _ & E & _).
    eexists. exact E.
  - intros x Hx. destruct (adm3 UF9 _ eq_refl Hx) as (x0 & x1 & r & -> & H0 & H1 & L).
    destruct (UF9_eval x0 x1 r L) as (v1 & v2 & v3 & _ & _ & _ & E). eexists. exact E.
  - intros x Hx. destruct (sphere_below _ _ uf10_base3 Hx) as (x0 & x1 & f1 & f2 & f3 & _ & _ & E & _).
    eexists. exact E.
  - intros x Hx. destruct (adm_two ackley (-1.5) 1.5 x eq_refl Hx) as (a & b & -> & _).
    destruct (ackley_nonneg a b) as (v & Ev & Hv). exists [v; v].
    unfold evaluates. cbn [map p_fits ackley]. rewrite Ev. reflexivity.
  - intros x Hx. destruct (adm_two EWA1 0 1 x eq_refl Hx) as (a & b & -> & _).
    exists [sin (50 * a) * cos (50 * b) + 1; (a - 0.5) ^ 2 * (b - 0.5) ^ 2]. reflexivity.
  - intros x Hx. destruct (adm_two EWA2 0 1 x eq_refl Hx) as (a & b & -> & _).
    exists [sin (50 * a) * cos (30 * b) + 1; sin (30 * a) * cos (50 * b) + 1]. reflexivity.
  - intros x _.
    assert (A : exists a, kursawe_a x = Some a).
    { apply msum_defined. intros [u v] _. cbn [fst snd].
      rewrite sqrt_ok; [cbn [bind]; eauto|]. pose proof (pow2_ge_0 u). pose proof (pow2_ge_0 v). lra. }
    assert (B : exists b, kursawe_b x = Some b).
    { apply msum_defined. intros u _. rewrite pow_ok; [cbn [bind]; eauto|apply Rabs_pos|lra]. }
    destruct A as (a & A), B as (b & B). exists [a; b]. unfold evaluates.
    cbn [map p_fits kursawe]. rewrite A, B. reflexivity.
Qed.
Print Assumptions C112_objectives_defined.

(** The rotated problems too: the matrices may take a vector outside [0,1], both branches are
    defined there. *)
Theorem C112_rotated_defined front : objectives_defined (UF11 front) /\ objectives_defined (UF12 front).
Proof. split; [apply UF11_defined|apply UF12_defined]. Qed.
Print Assumptions C112_rotated_defined.

(** The hypotheses are met: the vector used above is within the bounds. *)
Example C112_rotated_example front : exists f, evaluates (UF11 front) (scaled 10000 middle) f.
Proof. apply UF11_defined, middle_adm. Qed.

(** Outside the bounds UF1's second objective raises: the bounds matter. *)
Example C112_example : ~ exists f, evaluates UF1 ((-1) :: repeat 0 29) f.
Proof.
  intros (f & E). unfold evaluates in E.
  assert (L : length f = 2%nat) by (rewrite <- (map_length Some), <- E; reflexivity).
  destruct f as [|a [|b [|c f]]]; try discriminate.
  apply (f_equal (fun l => nth 1 l None)) in E.
  cbn [nth map p_fits UF1] in E. cbn [get nth_error bind] in E.
  unfold py_sqrt in E. destruct (Rle_dec 0 (-1)); [lra|]. discriminate E.
Qed.
