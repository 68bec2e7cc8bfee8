(** Proofs about the blurred objectives. *)
From Coq Require Import Reals List Lra Lia Psatz.
From Verif Require Import ProbModel ProbSpec ProbProofs ProbCurve ProbMore BlurModel BlurSpec.
Import ListNotations.
Local Open Scope R_scope.

Lemma told_values P errors level e zs x f f' :
  nth_error errors level = Some e -> evaluates P x f -> told P errors level zs x f' ->
  length zs = length f /\ f' = map (fun vz => Rabs (fst vz + snd vz * (e * fst vz / 3))) (combine f zs).
Proof.
  unfold evaluates, told, blurred_fitnesses. intros He. generalize (p_fits P) as fits. intros fits. revert f zs f'.
  induction fits as [|h fits IH]; intros [|v f] [|z zs] f' E (T & L); cbn in *; try discriminate.
  - inversion T. auto.
  - injection E as E0 E. injection L as L. inversion T as [|? v' ? f'' T0 T1]; subst. cbn in T0.
    unfold blurred_f in T0. rewrite E0 in T0. cbn [bind] in T0. rewrite He in T0. cbn in T0. injection T0 as <-.
    destruct (IH _ _ _ E (conj T1 L)) as (L' & ->). split; [now f_equal | reflexivity].
Qed.

Lemma told_exists P errors level e zs x f :
  nth_error errors level = Some e -> evaluates P x f -> length zs = length (p_fits P) -> exists f', told P errors level zs x f'.
Proof.
  unfold evaluates, told, blurred_fitnesses. intros He. generalize (p_fits P) as fits. intros fits. revert f zs.
  induction fits as [|h fits IH]; intros [|v f] [|z zs] E L; cbn in *; try discriminate.
  - exists []. split; [constructor | reflexivity].
  - injection E as E0 E. injection L as L. destruct (IH _ _ E L) as (f' & T & _).
    eexists (_ :: f'). split; [constructor; [|exact T] | now f_equal]. cbn. unfold blurred_f. rewrite E0. cbn [bind]. rewrite He. reflexivity.
Qed.

Lemma told_abs P errors level zs x f f' :
  nth_error errors level = Some 0 -> evaluates P x f -> told P errors level zs x f' -> f' = map Rabs f.
Proof.
  intros He E T. destruct (told_values _ _ _ _ _ _ _ _ He E T) as (L & ->). clear - L. revert zs L.
  induction f as [|v f IH]; intros [|z zs] L; cbn in *; try discriminate; [reflexivity|]. f_equal; [|apply IH; lia].
  f_equal. field.
Qed.

Lemma abs_same f : Forall (fun v => 0 <= v) f -> map Rabs f = f.
Proof. induction 1 as [|v f H _ IH]; cbn; [reflexivity|]. rewrite IH. f_equal. now apply Rabs_pos_eq. Qed.

Lemma told_is_abs P errors level zs x f :
  nth_error errors level = Some 0 -> evaluates P x f -> length zs = length (p_fits P) -> told P errors level zs x (map Rabs f).
Proof.
  intros He E L. destruct (told_exists _ _ _ _ _ _ _ He E L) as (f' & T). now rewrite <- (told_abs _ _ _ _ _ _ _ He E T).
Qed.

Lemma exact P : nonnegative P -> exact_without_error P.
Proof.
  intros N errors level He x f zs A E L. assert (Q : map Rabs f = f) by (apply abs_same; eauto). split.
  - rewrite <- Q. now apply told_is_abs.
  - intros f' T. now rewrite (told_abs _ _ _ _ _ _ _ He E T).
Qed.

Lemma ranks P : exact_without_error P -> ranks_without_error P.
Proof.
  intros H errors level He x y f g zs zs' f' g' Ax Ay Ex Ey Tx Ty.
  rewrite (proj2 (H _ _ He _ _ _ Ax Ex (proj2 Tx)) _ Tx), (proj2 (H _ _ He _ _ _ Ay Ey (proj2 Ty)) _ Ty). tauto.
Qed.

(** ** The problems with non-negative objectives *)

Ltac each := repeat (apply Forall_cons); [..|apply Forall_nil].

Lemma curve_nonneg P p1 p2 : curve P p1 p2 -> (forall t, 0 <= t <= 1 -> 0 <= p1 t /\ 0 <= p2 t) -> nonnegative P.
Proof.
  intros C H x f A E. destruct (cv_lower _ _ _ C x A) as (t & f1 & f2 & _ & Ht & E' & L1 & L2).
  rewrite (evaluates_unique _ _ _ _ E E'). destruct (H t Ht). each; lra.
Qed.

Lemma sqrt_le_1' t : 0 <= t <= 1 -> 0 <= sqrt t <= 1.
Proof. intros H. split; [apply sqrt_pos|]. rewrite <- sqrt_1. apply sqrt_le_1_alt. lra. Qed.

Lemma f1e_le_1 t : f1e t <= 1.
Proof.
  unfold f1e. pose proof (exp_pos (-4 * t)). set (s := sin _).
  assert (0 <= s ^ 6) by (replace (s ^ 6) with ((s ^ 3) * (s ^ 3)) by ring; apply Rle_0_sqr). nra.
Qed.

Lemma pen6_nonneg t : 0 <= pen6 t. Proof. apply Rmax_l. Qed.

Lemma sphere_nonneg b : base3 b -> nonnegative (sphere_problem b).
Proof.
  intros B x f A E. destruct (sphere_below _ _ B A) as (x0 & x1 & f1 & f2 & f3 & H0 & H1 & E' & L1 & L2 & L3).
  rewrite (evaluates_unique _ _ _ _ E E'). destruct (quarter x0 H0), (quarter x1 H1). unfold s1, s2, s3 in *.
  assert (0 <= cos (0.5 * x0 * PI) * cos (0.5 * x1 * PI)) by (now apply Rmult_le_pos).
  assert (0 <= cos (0.5 * x0 * PI) * sin (0.5 * x1 * PI)) by (now apply Rmult_le_pos). each; lra.
Qed.

Lemma UF9_nonneg : nonnegative UF9.
Proof.
  intros x f A E. destruct (adm3 UF9 _ eq_refl A) as (x0 & x1 & r & -> & H0 & H1 & L).
  destruct (UF9_eval x0 x1 r L) as (v1 & v2 & v3 & P1 & P2 & P3 & E'). rewrite (evaluates_unique _ _ _ _ E E').
  assert (0 <= uf9_bump x0) by apply Rmax_l. each; nra.
Qed.

Lemma ackley_nonneg' : nonnegative ackley.
Proof.
  intros x f A E. destruct (adm_two ackley (-1.5) 1.5 x eq_refl A) as (a & b & -> & _). destruct (ackley_nonneg a b) as (v & Ev & Hv).
  assert (E' : evaluates ackley [a; b] [v; v]) by (unfold evaluates; cbn [map p_fits ackley]; now rewrite Ev).
  rewrite (evaluates_unique _ _ _ _ E E'). each; lra.
Qed.

Lemma sin_cos_1 a b : -1 <= sin a * cos b.
Proof. pose proof (sin_in a). pose proof (cos_in b). nra. Qed.

Lemma EWA1_nonneg : nonnegative EWA1.
Proof.
  intros x f A E. destruct (adm_two EWA1 0 1 x eq_refl A) as (a & b & -> & _).
  assert (E' : evaluates EWA1 [a; b] [sin (50 * a) * cos (50 * b) + 1; (a - 0.5) ^ 2 * (b - 0.5) ^ 2]) by reflexivity.
  rewrite (evaluates_unique _ _ _ _ E E'). pose proof (sin_cos_1 (50 * a) (50 * b)).
  each; [lra|]. apply Rmult_le_pos; apply pow2_ge_0.
Qed.

Lemma EWA2_nonneg : nonnegative EWA2.
Proof.
  intros x f A E. destruct (adm_two EWA2 0 1 x eq_refl A) as (a & b & -> & _).
  assert (E' : evaluates EWA2 [a; b] [sin (50 * a) * cos (30 * b) + 1; sin (30 * a) * cos (50 * b) + 1]) by reflexivity.
  rewrite (evaluates_unique _ _ _ _ E E'). pose proof (sin_cos_1 (50 * a) (30 * b)). pose proof (sin_cos_1 (30 * a) (50 * b)).
  each; lra.
Qed.

Lemma all_nonneg :
  Forall nonnegative [ZDT1; ZDT2; ZDT4; ZDT6; UF1; UF2; UF3; UF4; UF5; UF6; UF7; UF8; UF9; UF10; ackley; EWA1; EWA2].
Proof.
  assert (S : forall t, 0 <= t <= 1 -> 0 <= t /\ 0 <= 1 - sqrt t) by (intros t Ht; pose proof (sqrt_le_1' t Ht); lra).
  repeat (apply Forall_cons); [..|apply Forall_nil].
  - apply (curve_nonneg _ _ _ ZDT1_curve). auto.
  - apply (curve_nonneg _ _ _ ZDT2_curve). intros. nra.
  - apply (curve_nonneg _ _ _ ZDT4_curve). auto.
  - apply (curve_nonneg _ _ _ ZDT6_curve). intros t Ht. pose proof (f1e_nonneg t (proj1 Ht)). pose proof (f1e_le_1 t). nra.
  - apply (curve_nonneg _ _ _ UF1_curve). auto.
  - apply (curve_nonneg _ _ _ UF2_curve). auto.
  - apply (curve_nonneg _ _ _ UF3_curve). auto.
  - apply (curve_nonneg _ _ _ UF4_curve). intros. nra.
  - apply (curve_nonneg _ _ _ UF5_curve). intros t Ht. pose proof (pen5_nonneg t). lra.
  - apply (curve_nonneg _ _ _ UF6_curve). intros t Ht. pose proof (pen6_nonneg t). lra.
  - apply (curve_nonneg _ _ _ UF7_curve). intros t Ht. pose proof (rpow_nonneg t 0.2). pose proof (rpow_le_1 t 0.2 Ht). lra.
  - apply sphere_nonneg, uf8_base3.
  - apply UF9_nonneg.
  - apply sphere_nonneg, uf10_base3.
  - apply ackley_nonneg'.
  - apply EWA1_nonneg.
  - apply EWA2_nonneg.
Qed.

(** ** Tolerance *)

Lemma blur_bounds e z v : 0 <= e <= 1 -> -3 <= z <= 3 -> 0 <= v ->
  (1 - e) * v <= Rabs (v + z * (e * v / 3)) <= (1 + e) * v.
Proof.
  intros He Hz Hv. replace (v + z * (e * v / 3)) with (v * (1 + z / 3 * e)) by field.
  assert (-e <= z / 3 * e <= e) by nra. rewrite Rabs_pos_eq by nra. nra.
Qed.

(** ** kursawe: the first objective is always negative *)

Lemma kursawe_a_neg u v r w : kursawe_a (u :: v :: r) = Some w -> w < 0.
Proof.
  unfold kursawe_a. cbn [tl combine].
  assert (M : forall l s, msum (fun p : R * R => let* r := py_sqrt (fst p ^ 2 + snd p ^ 2) in Some (-10 * exp (-0.2 * r))) l = Some s -> s <= 0).
  { induction l as [|[a b] l IH]; cbn; intros s E; [injection E as <-; lra|].
    assert (0 <= a ^ 2 + b ^ 2) by (pose proof (pow2_ge_0 a); pose proof (pow2_ge_0 b); lra).
    cbn in H. rewrite sqrt_ok in E by exact H. cbn [bind] in E. destruct (msum _ l) as [s'|]; cbn in E; [|discriminate]. injection E as <-.
    specialize (IH _ eq_refl). pose proof (exp_pos (-0.2 * sqrt (a * (a * 1) + b * (b * 1)))). lra. }
  cbn [msum fst snd]. assert (0 <= u ^ 2 + v ^ 2) by (pose proof (pow2_ge_0 u); pose proof (pow2_ge_0 v); lra).
  rewrite sqrt_ok by assumption. cbn [bind]. match goal with |- context [msum ?k ?l] => destruct (msum k l) as [s|] eqn:E end; cbn [bind]; [|discriminate].
  specialize (M _ _ E). intros X. injection X as <-. match goal with |- context [exp ?t] => pose proof (exp_pos t) end. lra.
Qed.

Lemma kursawe_a_100 : kursawe_a [1; 0; 0] = Some (-10 * exp (-0.2 * 1) + (-10 * 1 + 0)).
Proof.
  unfold kursawe_a. cbn [tl combine msum fst snd]. replace (1 ^ 2 + 0 ^ 2) with 1 by ring. replace (0 ^ 2 + 0 ^ 2) with 0 by ring.
  rewrite !sqrt_ok by lra. cbn [bind]. rewrite sqrt_1, sqrt_0. rewrite Rmult_0_r, exp_0. reflexivity.
Qed.
Lemma kursawe_a_010 : kursawe_a [0; 1; 0] = Some (-10 * exp (-0.2 * 1) + (-10 * exp (-0.2 * 1) + 0)).
Proof.
  unfold kursawe_a. cbn [tl combine msum fst snd]. replace (1 ^ 2 + 0 ^ 2) with 1 by ring. replace (0 ^ 2 + 1 ^ 2) with 1 by ring.
  rewrite !sqrt_ok by lra. cbn [bind]. rewrite sqrt_1. reflexivity.
Qed.
Lemma kursawe_b_swap : exists b, kursawe_b [1; 0; 0] = Some b /\ kursawe_b [0; 1; 0] = Some b.
Proof.
  unfold kursawe_b. cbn [msum]. rewrite !pow_ok by (try apply Rabs_pos; lra). cbn [bind]. eexists. split; [reflexivity|]. f_equal. ring.
Qed.

Lemma exp_less_1 t : t < 0 -> exp t < 1.
Proof. intros H. rewrite <- exp_0. now apply exp_increasing. Qed.

Lemma kursawe_backwards : ranked_backwards kursawe.
Proof.
  destruct kursawe_b_swap as (b & Eb & Eb'). set (q := exp (-0.2 * 1)).
  assert (Q : 0 < q < 1) by (split; [apply exp_pos | apply exp_less_1; lra]).
  assert (E1 : evaluates kursawe [1; 0; 0] [-10 * q + (-10 * 1 + 0); b]) by (unfold evaluates; cbn [map p_fits kursawe]; now rewrite kursawe_a_100, Eb).
  assert (E2 : evaluates kursawe [0; 1; 0] [-10 * q + (-10 * q + 0); b]) by (unfold evaluates; cbn [map p_fits kursawe]; now rewrite kursawe_a_010, Eb').
  exists [1; 0; 0], [0; 1; 0]. eexists _, _. split; [cbv [admissible kursawe p_dims repeat]; repeat (apply Forall2_cons); [cbn; lra ..|apply Forall2_nil]|].
  split; [cbv [admissible kursawe p_dims repeat]; repeat (apply Forall2_cons); [cbn; lra ..|apply Forall2_nil]|]. split; [exact E1|]. split; [exact E2|]. split.
  - split; [apply Forall2_pair; lra|]. intros X. injection X as X. lra.
  - intros errors level zs zs' He L1 L2. eexists _, _. split; [apply told_is_abs; eassumption|]. split; [apply told_is_abs; eassumption|]. cbn [map].
    assert (A1 : Rabs (-10 * q + (-10 * 1 + 0)) = 10 * q + 10) by (rewrite Rabs_left by lra; lra).
    assert (A2 : Rabs (-10 * q + (-10 * q + 0)) = 20 * q) by (rewrite Rabs_left by lra; lra).
    rewrite A1, A2. split; [apply Forall2_pair; lra|]. intros X. injection X as X. lra.
Qed.

(** ** ZDT3 *)

Lemma sin_85 : sin (10 * PI * 0.85) = 1.
Proof. replace (10 * PI * 0.85) with (PI / 2 + 2 * INR 4 * PI) by (replace (INR 4) with 4 by (cbn; lra); lra). rewrite sin_period. apply sin_PI2. Qed.

Lemma msum_repeat c n : msum Some (repeat c n) = Some (INR n * c).
Proof.
  rewrite (msum_const _ Some c), repeat_length; [reflexivity|]. intros a H. apply repeat_spec in H. now subst.
Qed.

Lemma ZDT3_eval c : 0 <= c -> let g := 1 + 0.3103448275862069 * (29 * c) in
  evaluates ZDT3 (0.85 :: repeat c 29) [0.85; g * (1 - sqrt (0.85 / g) - 0.85 / g)].
Proof.
  intros Hc g. unfold evaluates, ZDT3, emoa. cbn [map p_fits]. unfold subfit1, subfit2. cbn [tl get nth_error bind f1a].
  unfold ga. rewrite msum_repeat. cbn [bind]. replace (INR 29) with 29 by (cbn; lra). fold g. assert (Hg : 1 <= g) by (unfold g; lra).
  unfold hc. rewrite div_ok by lra. cbn [bind]. assert (D : 0 < 0.85 / g) by (apply Rdiv_lt_0_compat; lra).
  rewrite Rabs_pos_eq by lra. rewrite sqrt_ok by lra. cbn [bind]. rewrite sin_85. rewrite Rmult_1_r. reflexivity.
Qed.

Lemma sqrt_between lo hi t : 0 <= lo -> 0 <= hi -> lo * lo <= t <= hi * hi -> lo <= sqrt t <= hi.
Proof.
  intros Hl Hh (L & U). rewrite <- (sqrt_square lo Hl) at 1. rewrite <- (sqrt_square hi Hh). split; apply sqrt_le_1_alt; assumption.
Qed.

Lemma ZDT3_admissible c : 0 <= c <= 1 -> admissible ZDT3 (0.85 :: repeat c 29).
Proof.
  intros Hc. unfold admissible, ZDT3, emoa. cbn [p_dims repeat]. repeat (apply Forall2_cons); [cbn; lra ..|apply Forall2_nil].
Qed.

Lemma ZDT3_backwards : ranked_backwards ZDT3.
Proof.
  pose proof (ZDT3_eval 0 ltac:(lra)) as E1. pose proof (ZDT3_eval (1 / 9) ltac:(lra)) as E2. cbv zeta in E1, E2.
  set (a := _ * (_ - _ - _)) in E1. set (c := _ * (_ - _ - _)) in E2.
  assert (A : -0.79 <= a <= -0.75).
  { unfold a. replace (1 + 0.3103448275862069 * (29 * 0)) with 1 by lra. replace (0.85 / 1) with 0.85 by field.
    pose proof (sqrt_between 0.9 0.93 0.85 ltac:(lra) ltac:(lra) ltac:(lra)). lra. }
  assert (C : -0.3 <= c <= -0.05).
  { unfold c. set (g := 1 + 0.3103448275862069 * (29 * (1 / 9))). assert (G : 1.9 <= g <= 2.1) by (unfold g; lra).
    assert (D : 0.4 <= 0.85 / g <= 0.45).
    { split; [apply Rmult_le_reg_r with g | apply Rmult_le_reg_r with g]; try lra; unfold Rdiv; rewrite Rmult_assoc, Rinv_l by lra; lra. }
    pose proof (sqrt_between 0.63 0.68 (0.85 / g) ltac:(lra) ltac:(lra) ltac:(lra)) as S.
    replace (g * (1 - sqrt (0.85 / g) - 0.85 / g)) with (g * (1 - sqrt (0.85 / g)) - 0.85) by (field; lra). nra. }
  exists (0.85 :: repeat 0 29), (0.85 :: repeat (1 / 9) 29). eexists _, _.
  split; [apply ZDT3_admissible; lra|]. split; [apply ZDT3_admissible; lra|]. split; [exact E1|]. split; [exact E2|]. split.
  - split; [apply Forall2_pair; lra|]. intros X. apply (f_equal (fun l => nth 1 l 0)) in X. cbn [nth] in X. lra.
  - intros errors level zs zs' He L1 L2. eexists _, _. split; [apply told_is_abs; eassumption|]. split; [apply told_is_abs; eassumption|]. cbn [map].
    rewrite (Rabs_left a), (Rabs_left c) by lra. split; [apply Forall2_pair; lra|].
    intros X. apply (f_equal (fun l => nth 1 l 0)) in X. cbn [nth] in X. lra.
Qed.
