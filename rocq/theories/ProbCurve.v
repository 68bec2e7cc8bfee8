(** The two-objective benchmark problems are a curve plus a non-negative term. *)
From Coq Require Import Reals List Lra Lia Psatz.
From Verif Require Import ProbModel ProbSpec ProbProofs.
Import ListNotations.
Local Open Scope R_scope.

(** ** ZDT *)

Lemma adm_unit n P x : p_dims P = repeat (0, 1) (S n) -> admissible P x ->
  exists x0 r, x = x0 :: r /\ 0 <= x0 <= 1 /\ length r = n /\ Forall (fun v => 0 <= v <= 1) r.
Proof. intros E. apply adm_tail. rewrite E. reflexivity. Qed.

Lemma zeros_map n : forall k, repeat 0 n = map (fun _ : nat => 0) (seq k n).
Proof. induction n as [|n IH]; intros k; cbn; [reflexivity|]. f_equal. apply IH. Qed.

Lemma adm_zeros lo hi n P x0 :
  p_dims P = (0, 1) :: repeat (lo, hi) n -> lo <= 0 <= hi -> 0 <= x0 <= 1 ->
  admissible P (x0 :: repeat 0 n).
Proof.
  intros E H0 Hx. rewrite (zeros_map n 0). apply (adm_make lo hi); [assumption|assumption|].
  intros; assumption.
Qed.

Lemma in_repeat A (a b : A) n : In a (repeat b n) -> a = b.
Proof. apply repeat_spec. Qed.

Lemma ga_lower r : Forall (fun v => 0 <= v <= 1) r -> exists g, ga r = Some g /\ 1 <= g.
Proof.
  intros F. rewrite Forall_forall in F. unfold ga.
  destruct (msum_nonneg R Some r) as (s & -> & Hs).
  { intros a Ha. exists a. split; [reflexivity|]. apply F in Ha. lra. }
  cbn [bind]. eexists. split; [reflexivity|]. nra.
Qed.

Lemma ga_zero n : ga (repeat 0 n) = Some 1.
Proof.
  unfold ga. rewrite msum_zero by (intros a Ha; apply in_repeat in Ha; now subst).
  cbn [bind]. f_equal. lra.
Qed.

Lemma gd_lower r : length r = 9%nat -> exists g, gd r = Some g /\ 1 <= g.
Proof.
  intros L. unfold gd.
  destruct (msum_lower R (fun x => Some (x ^ 2 - 10 * cos (4 * PI * x))) (-10) r) as (s & -> & Hs).
  { intros a Ha. eexists. split; [reflexivity|]. pose proof (cos_in (4 * PI * a)). nra. }
  rewrite L in Hs. cbn [INR] in Hs. cbn [bind]. eexists. split; [reflexivity|]. lra.
Qed.

Lemma gd_zero : gd (repeat 0 9) = Some 1.
Proof.
  unfold gd. rewrite (msum_const R _ (-10)).
  - rewrite repeat_length. cbn [bind INR]. f_equal. lra.
  - intros a Ha. apply in_repeat in Ha. subst a. f_equal.
    replace (4 * PI * 0) with 0 by lra. rewrite cos_0. lra.
Qed.

Lemma ge_lower r : Forall (fun v => 0 <= v <= 1) r -> exists g, ge r = Some g /\ 1 <= g.
Proof.
  intros F. rewrite Forall_forall in F. unfold ge.
  destruct (msum_nonneg R Some r) as (s & -> & Hs).
  { intros a Ha. exists a. split; [reflexivity|]. apply F in Ha. lra. }
  cbn [bind]. rewrite pow_ok by lra. cbn [bind]. eexists. split; [reflexivity|].
  pose proof (rpow_nonneg s 0.25). nra.
Qed.

Lemma ge_zero n : ge (repeat 0 n) = Some 1.
Proof.
  unfold ge. rewrite msum_zero by (intros a Ha; apply in_repeat in Ha; now subst).
  cbn [bind]. rewrite pow_ok by lra. cbn [bind]. f_equal. unfold rpow.
  destruct (Req_EM_T 0 0); lra.
Qed.

Lemma ha_value t g : 0 <= t -> 1 <= g ->
  exists w, ha t g = Some w /\ g * w = g - sqrt t * sqrt g.
Proof.
  intros Ht Hg. unfold ha. rewrite div_ok by lra. cbn [bind].
  rewrite sqrt_ok by apply Rabs_pos. cbn [bind]. eexists. split; [reflexivity|].
  assert (D : 0 <= t / g).
  { apply Rmult_le_pos; [assumption|]. left. apply Rinv_0_lt_compat. lra. }
  rewrite Rabs_pos_eq by assumption. rewrite sqrt_div_alt by lra.
  assert (G : 0 < sqrt g) by (apply sqrt_lt_R0; lra).
  assert (S : sqrt g * sqrt g = g) by (apply sqrt_sqrt; lra).
  rewrite Rmult_minus_distr_l, Rmult_1_r. f_equal.
  rewrite <- S at 1. field. lra.
Qed.

Lemma sqrt_le_1' t : 0 <= t <= 1 -> 0 <= sqrt t <= 1.
Proof.
  intros H. split; [apply sqrt_pos|]. rewrite <- sqrt_1. apply sqrt_le_1; lra.
Qed.

Lemma curve_below_sqrt t g : 0 <= t <= 1 -> 1 <= g -> 1 - sqrt t <= g - sqrt t * sqrt g.
Proof.
  intros Ht Hg.
  assert (G : 1 <= sqrt g) by (rewrite <- sqrt_1; apply sqrt_le_1; lra).
  assert (S : sqrt g * sqrt g = g) by (apply sqrt_sqrt; lra).
  pose proof (sqrt_le_1' t Ht). nra.
Qed.

Lemma hb_value t g : 1 <= g -> exists w, hb t g = Some w /\ 1 - t * t <= g * w.
Proof.
  intros Hg. unfold hb. rewrite div_ok by lra. cbn [bind]. eexists. split; [reflexivity|].
  replace (g * (1 - (t / g) ^ 2)) with (g - t * t * / g) by (field; lra).
  assert (I : 0 < / g <= 1).
  { split; [apply Rinv_0_lt_compat; lra|]. rewrite <- Rinv_1. apply Rinv_le_contravar; lra. }
  pose proof (Rle_0_sqr t) as Q. unfold Rsqr in Q. nra.
Qed.

Lemma hb_one t : exists w, hb t 1 = Some w /\ 1 * w = 1 - t * t.
Proof.
  unfold hb. rewrite div_ok by lra. cbn [bind]. eexists. split; [reflexivity|]. field.
Qed.

Lemma hc_value t g : 0 <= t -> 1 <= g ->
  exists w, hc t g = Some w /\ g * w = g - sqrt t * sqrt g - t * sin (10 * PI * t).
Proof.
  intros Ht Hg. destruct (ha_value t g Ht Hg) as (w & E & V). unfold ha in E. unfold hc.
  rewrite div_ok in * by lra. cbn [bind] in *. rewrite sqrt_ok in * by apply Rabs_pos.
  cbn [bind] in *. injection E as <-. eexists. split; [reflexivity|].
  rewrite Rmult_minus_distr_l, V. f_equal. field. lra.
Qed.

Lemma zdt_curve P f1 p1 p2 g h lo hi n :
  p_fits P = [subfit1 f1; subfit2 f1 g h] ->
  p_dims P = (0, 1) :: repeat (lo, hi) n -> lo <= 0 <= hi ->
  (forall t, f1 t = Some (p1 t)) ->
  (forall r, length r = n -> Forall (fun v => lo <= v <= hi) r -> exists y, g r = Some y /\ 1 <= y) ->
  g (repeat 0 n) = Some 1 ->
  (forall t y, 0 <= t <= 1 -> 1 <= y -> exists w, h (p1 t) y = Some w /\ p2 t <= y * w) ->
  (forall t, 0 <= t <= 1 -> exists w, h (p1 t) 1 = Some w /\ 1 * w = p2 t) ->
  curve P p1 p2.
Proof.
  intros EF ED H0 E1 Hg Hg0 Hh Hh1. split.
  - intros x Hx. destruct (adm_tail lo hi n P x ED Hx) as (x0 & r & -> & Hx0 & L & F).
    destruct (Hg r L F) as (y & Ey & Hy). destruct (Hh x0 y Hx0 Hy) as (w & Ew & Hw).
    exists x0, (p1 x0), (y * w). split; [reflexivity|]. split; [assumption|].
    split; [|lra]. unfold evaluates. rewrite EF. cbn [map subfit1 subfit2 get nth_error tl bind].
    unfold subfit1, subfit2. cbn [get nth_error tl bind]. rewrite Ey, !E1. cbn [bind].
    rewrite Ew. reflexivity.
  - intros t Ht. exists (t :: repeat 0 n). split; [now apply (adm_zeros lo hi)|].
    destruct (Hh1 t Ht) as (w & Ew & Hw).
    unfold evaluates. rewrite EF. cbn [map].
    unfold subfit1, subfit2. cbn [get nth_error tl bind]. rewrite Hg0, !E1. cbn [bind].
    rewrite Ew. cbn [bind]. now rewrite Hw.
Qed.

Lemma ZDT1_curve : curve ZDT1 (fun t => t) (fun t => 1 - sqrt t).
Proof.
  apply (zdt_curve _ f1a _ _ ga ha 0 1 29); try reflexivity; [lra| | | |].
  - intros r _ F. now apply ga_lower.
  - apply ga_zero.
  - intros t y Ht Hy. destruct (ha_value t y) as (w & E & V); [lra|lra|].
    exists w. split; [assumption|]. rewrite V. now apply curve_below_sqrt.
  - intros t Ht. destruct (ha_value t 1) as (w & E & V); [lra|lra|].
    exists w. split; [assumption|]. rewrite V, sqrt_1. lra.
Qed.

Lemma ZDT2_curve : curve ZDT2 (fun t => t) (fun t => 1 - t * t).
Proof.
  apply (zdt_curve _ f1a _ _ ga hb 0 1 29); try reflexivity; [lra| | | |].
  - intros r _ F. now apply ga_lower.
  - apply ga_zero.
  - intros t y Ht Hy. now apply hb_value.
  - intros t Ht. apply hb_one.
Qed.

Lemma ZDT3_curve : curve ZDT3 (fun t => t) (fun t => 1 - sqrt t - t * sin (10 * PI * t)).
Proof.
  apply (zdt_curve _ f1a _ _ ga hc 0 1 29); try reflexivity; [lra| | | |].
  - intros r _ F. now apply ga_lower.
  - apply ga_zero.
  - intros t y Ht Hy. destruct (hc_value t y) as (w & E & V); [lra|lra|].
    exists w. split; [assumption|]. rewrite V. pose proof (curve_below_sqrt t y Ht Hy). lra.
  - intros t Ht. destruct (hc_value t 1) as (w & E & V); [lra|lra|].
    exists w. split; [assumption|]. rewrite V, sqrt_1. lra.
Qed.

Lemma ZDT4_curve : curve ZDT4 (fun t => t) (fun t => 1 - sqrt t).
Proof.
  apply (zdt_curve _ f1a _ _ gd ha (-5) 5 9); try reflexivity; [lra| | | |].
  - intros r L _. now apply gd_lower.
  - apply gd_zero.
  - intros t y Ht Hy. destruct (ha_value t y) as (w & E & V); [lra|lra|].
    exists w. split; [assumption|]. rewrite V. now apply curve_below_sqrt.
  - intros t Ht. destruct (ha_value t 1) as (w & E & V); [lra|lra|].
    exists w. split; [assumption|]. rewrite V, sqrt_1. lra.
Qed.

Lemma ZDT6_curve : curve ZDT6 f1e (fun t => 1 - f1e t * f1e t).
Proof.
  apply (zdt_curve _ (fun x => Some (f1e x)) _ _ ge hb 0 1 9); try reflexivity; [lra| | | |].
  - intros r _ F. now apply ge_lower.
  - apply ge_zero.
  - intros t y Ht Hy. now apply hb_value.
  - intros t Ht. apply hb_one.
Qed.

Lemma f1e_nonneg t : 0 <= t -> 0 <= f1e t.
Proof.
  intros Ht. unfold f1e.
  assert (E : 0 < exp (-4 * t) <= 1).
  { split; [apply exp_pos|]. rewrite <- exp_0. destruct Ht as [Ht|<-].
    - left. apply exp_increasing. lra.
    - right. f_equal. lra. }
  set (s := sin (6 * PI * t)). assert (S : -1 <= s <= 1) by apply sin_in.
  assert (S2 : 0 <= s ^ 2 <= 1) by nra.
  assert (S6 : 0 <= s ^ 6 <= 1).
  { replace (s ^ 6) with ((s ^ 2) * ((s ^ 2) * (s ^ 2))) by ring.
    set (q := s ^ 2) in *. assert (0 <= q * q <= 1) by nra. nra. }
  nra.
Qed.

(** ** UF1 to UF7 *)

Record good (n : nat) (J : list nat) : Prop := {
  gj_ne : INR (length J) > 0;
  gj_in : forall j, In j J -> (2 <= j <= n)%nat }.

Lemma good_odd n : (3 <= n)%nat -> good n (odd_j n).
Proof.
  intros Hn. split; [|apply in_odd_j].
  apply lt_0_INR. assert (I : In 3%nat (odd_j n)).
  { unfold odd_j. apply filter_In. split; [apply in_seq; lia|reflexivity]. }
  destruct (odd_j n); [destruct I|cbn; lia].
Qed.

Lemma good_even n : (3 <= n)%nat -> good n (even_j n).
Proof.
  intros Hn. split; [|apply in_even_j].
  apply lt_0_INR. assert (I : In 2%nat (even_j n)).
  { unfold even_j. apply filter_In. split; [apply in_seq; lia|reflexivity]. }
  destruct (even_j n); [destruct I|cbn; lia].
Qed.

Lemma good_list n J : good n J -> J <> [].
Proof. intros G E. subst J. destruct G as [H _]. cbn in H. lra. Qed.

Lemma get_ok x0 r n j : length r = (n - 1)%nat -> (2 <= j <= n)%nat ->
  exists v, get (x0 :: r) (j - 1) = Some v.
Proof.
  intros L Hj. unfold get. destruct (nth_error (x0 :: r) (j - 1)) eqn:E; [eauto|].
  apply nth_error_None in E. cbn [length] in E. lia.
Qed.

(** A base term [b x J]: defined and non-negative everywhere, zero at [g t]. *)
Record base_ok (n : nat) (b : list R -> list nat -> option R) (J : list nat)
    (g : R -> nat -> R) : Prop := {
  bo_nonneg : forall x0 r, 0 <= x0 <= 1 -> length r = (n - 1)%nat ->
     exists v, b (x0 :: r) J = Some v /\ 0 <= v;
  bo_zero : forall t h, 0 <= t <= 1 -> (forall j, In j J -> h j = g t j) ->
     b (t :: map h (seq 2 (n - 1))) J = Some 0 }.

Lemma yj_ok m n x0 r j : length r = (n - 1)%nat -> (2 <= j <= n)%nat ->
  exists y, yj m (x0 :: r) j = Some y.
Proof.
  intros L Hj. unfold yj. cbn [get nth_error bind].
  destruct (get_ok x0 r n j L Hj) as (v & ->). cbn [bind]. eauto.
Qed.

Lemma yj_zero m n t h j : (2 <= j <= n)%nat -> h j = centre m t j ->
  yj m (t :: map h (seq 2 (n - 1))) j = Some 0.
Proof.
  intros Hj E. unfold yj. cbn [get nth_error bind].
  rewrite get_map by lia. cbn [bind]. rewrite E. f_equal. lra.
Qed.

Lemma div_nonneg a b : 0 <= a -> b > 0 -> 0 <= a / b.
Proof. intros Ha Hb. apply Rmult_le_pos; [assumption|]. left. now apply Rinv_0_lt_compat. Qed.

Lemma uf1_base_ok J : good 30 J -> base_ok 30 uf1_base J (centre 30).
Proof.
  intros [G1 G2]. split.
  - intros x0 r _ L. unfold uf1_base. rewrite div_ok by lra. cbn [bind].
    destruct (msum_nonneg nat (fun j => let* y := yj 30 (x0 :: r) j in Some (y ^ 2)) J) as (s & -> & Hs).
    { intros j Hj. destruct (yj_ok 30 30 x0 r j L (G2 j Hj)) as (y & ->). cbn [bind].
      eexists. split; [reflexivity|]. nra. }
    cbn [bind]. eexists. split; [reflexivity|].
    apply Rmult_le_pos; [|assumption]. apply div_nonneg; lra.
  - intros t h _ E. unfold uf1_base. rewrite div_ok by lra. cbn [bind].
    rewrite msum_zero.
    + cbn [bind]. f_equal. lra.
    + intros j Hj. rewrite (yj_zero 30 30) by auto. cbn [bind]. f_equal. lra.
Qed.

Lemma uf2_base_ok J trig : good 30 J ->
  base_ok 30 (fun x J => uf2_base x J trig) J (fun t j => uf2_centre t j trig).
Proof.
  intros [G1 G2]. split.
  - intros x0 r _ L. unfold uf2_base. rewrite div_ok by lra. cbn [bind].
    match goal with |- context [msum ?f J] => destruct (msum_nonneg nat f J) as (s & -> & Hs) end.
    { intros j Hj. cbn [get nth_error bind]. destruct (get_ok x0 r 30 j L (G2 j Hj)) as (v & ->).
      cbn [bind]. eexists. split; [reflexivity|]. apply pow2_ge_0. }
    cbn [bind]. eexists. split; [reflexivity|].
    apply Rmult_le_pos; [|assumption]. apply div_nonneg; lra.
  - intros t h _ E. unfold uf2_base. rewrite div_ok by lra. cbn [bind].
    rewrite msum_zero.
    + cbn [bind]. f_equal. lra.
    + intros j Hj. pose proof (G2 j Hj). cbn [get nth_error bind]. rewrite get_map by lia. cbn [bind].
      rewrite E by assumption. f_equal. rewrite Rminus_eq_0. lra.
Qed.

Lemma in_combine_index A B (l : list A) (l' : list B) a b :
  In (a, b) (combine l l') -> In a l /\ In b l'.
Proof. intros H. split; [eapply in_combine_l|eapply in_combine_r]; exact H. Qed.

Lemma sum_prod_nonneg n y J : good n J ->
  (forall j, In j J -> exists v, y j = Some v) ->
  exists v, sum_prod_base y J = Some v /\ 0 <= v.
Proof.
  intros G Hy. pose proof (good_list _ _ G) as N. destruct G as [G1 G2].
  unfold sum_prod_base. destruct (mmap_defined _ _ y J Hy) as (Y & -> & L & _).
  cbn [bind].
  destruct (msum_nonneg R (fun v => Some (v ^ 2)) Y) as (s & -> & Hs).
  { intros a _. eexists. split; [reflexivity|]. apply pow2_ge_0. }
  cbn [bind].
  match goal with |- context [mprod ?f (combine Y J)] =>
    destruct (mprod_unit _ f (combine Y J)) as (p & -> & Hp) end.
  - destruct J; [contradiction|]. destruct Y; [discriminate|]. discriminate.
  - intros [v j] H. apply in_combine_index in H. destruct H as [_ H]. apply G2 in H.
    cbn [fst snd]. assert (0 < INR j) by (apply lt_0_INR; lia).
    rewrite sqrt_ok by lra. cbn [bind]. rewrite div_ok.
    + cbn [bind]. eexists. split; [reflexivity|]. apply cos_in.
    + assert (0 < sqrt (INR j)) by now apply sqrt_lt_R0. lra.
  - cbn [bind]. rewrite div_ok by lra. eexists. split; [reflexivity|]. apply div_nonneg; lra.
Qed.

Lemma sum_prod_zero n y J : good n J -> (forall j, In j J -> y j = Some 0) ->
  sum_prod_base y J = Some 0.
Proof.
  intros G Hy. pose proof (good_list _ _ G) as N. destruct G as [G1 G2].
  unfold sum_prod_base. rewrite (mmap_ok _ _ y (fun _ => 0)) by assumption. cbn [bind].
  rewrite msum_zero.
  2: { intros a Ha. apply in_map_iff in Ha. destruct Ha as (_ & <- & _). f_equal. lra. }
  cbn [bind]. rewrite mprod_one.
  - cbn [bind]. rewrite div_ok by lra. f_equal. field. lra.
  - destruct J; [contradiction|]. discriminate.
  - intros [v j] H. apply in_combine_index in H. destruct H as [Hv H]. apply G2 in H.
    apply in_map_iff in Hv. destruct Hv as (_ & <- & _).
    cbn [fst snd]. assert (0 < INR j) by (apply lt_0_INR; lia).
    rewrite sqrt_ok by lra. cbn [bind].
    assert (0 < sqrt (INR j)) by now apply sqrt_lt_R0.
    rewrite div_ok by lra. cbn [bind]. f_equal.
    replace (20 * 0 * PI / sqrt (INR j)) with 0 by (field; lra). apply cos_0.
Qed.

Definition uf3_exp (j : nat) : R := 0.5 * (1 + 3 * (INR j - 2) / (INR 30 - 2)).

Lemma INR30 : INR 30 = 30.
Proof. cbn [INR]. lra. Qed.

Lemma uf3_exp_pos j : (2 <= j)%nat -> 0 < uf3_exp j.
Proof.
  intros Hj. unfold uf3_exp. rewrite INR30.
  assert (2 <= INR j) by (apply (le_INR 2); assumption).
  assert (0 <= 3 * (INR j - 2) / (30 - 2)) by (apply div_nonneg; lra). lra.
Qed.

Lemma uf3_base_ok J : good 30 J ->
  base_ok 30 (fun x J => sum_prod_base (uf3_y x) J) J (fun t j => rpow t (uf3_exp j)).
Proof.
  intros G. pose proof (gj_in _ _ G) as G2. split.
  - intros x0 r H0 L. apply (sum_prod_nonneg 30); [assumption|]. intros j Hj.
    unfold uf3_y. cbn [get nth_error bind]. destruct (get_ok x0 r 30 j L (G2 j Hj)) as (v & ->).
    cbn [bind]. fold (uf3_exp j). rewrite pow_ok; [cbn [bind]; eauto|lra|].
    apply uf3_exp_pos. apply G2 in Hj. lia.
  - intros t h Ht E. apply (sum_prod_zero 30); [assumption|]. intros j Hj. pose proof (G2 j Hj).
    unfold uf3_y. cbn [get nth_error bind]. rewrite get_map by lia. cbn [bind].
    fold (uf3_exp j). rewrite pow_ok; [|lra|apply uf3_exp_pos; lia].
    cbn [bind]. rewrite E by assumption. f_equal. lra.
Qed.

Lemma uf4_base_ok J : good 30 J -> base_ok 30 uf4_base J (centre 30).
Proof.
  intros [G1 G2].
  assert (D : forall t, 1 + exp (2 * Rabs t) <> 0).
  { intros t. pose proof (exp_pos (2 * Rabs t)). lra. }
  split.
  - intros x0 r _ L. unfold uf4_base.
    match goal with |- context [msum ?f J] => destruct (msum_nonneg nat f J) as (s & -> & Hs) end.
    { intros j Hj. destruct (yj_ok 30 30 x0 r j L (G2 j Hj)) as (y & ->). cbn [bind].
      unfold uf4_h. rewrite div_ok by apply D. eexists. split; [reflexivity|].
      apply div_nonneg; [apply Rabs_pos|]. pose proof (exp_pos (2 * Rabs y)). lra. }
    cbn [bind]. rewrite div_ok by lra. eexists. split; [reflexivity|]. apply div_nonneg; lra.
  - intros t h _ E. unfold uf4_base. rewrite msum_zero.
    + cbn [bind]. rewrite div_ok by lra. f_equal. field. lra.
    + intros j Hj. rewrite (yj_zero 30 30) by auto. cbn [bind]. unfold uf4_h.
      rewrite div_ok by apply D. f_equal. rewrite Rabs_R0. field.
      pose proof (exp_pos (2 * 0)). lra.
Qed.

Lemma uf7_base_ok J : good 30 J -> base_ok 30 uf7_base J (centre 30).
Proof.
  intros [G1 G2]. split.
  - intros x0 r _ L. unfold uf7_base.
    match goal with |- context [msum ?f J] => destruct (msum_nonneg nat f J) as (s & -> & Hs) end.
    { intros j Hj. destruct (yj_ok 30 30 x0 r j L (G2 j Hj)) as (y & ->). cbn [bind].
      eexists. split; [reflexivity|]. apply pow2_ge_0. }
    cbn [bind]. rewrite div_ok by lra. eexists. split; [reflexivity|]. apply div_nonneg; lra.
  - intros t h _ E. unfold uf7_base. rewrite msum_zero.
    + cbn [bind]. rewrite div_ok by lra. f_equal. field. lra.
    + intros j Hj. rewrite (yj_zero 30 30) by auto. cbn [bind]. f_equal. lra.
Qed.

(** UF5 and UF6 add a term that depends on the first variable only. *)
Definition pen5 (t : R) : R := (1 / (2 * 10) + 0.1) * Rabs (sin (2 * 10 * PI * t)).
Definition pen6 (t : R) : R := Rmax 0 (2 * (1 / (2 * 30) + 0.1) * sin (2 * 30 * PI * t)).

Record base_pen (n : nat) (b : list R -> list nat -> option R) (J : list nat)
    (g : R -> nat -> R) (pen : R -> R) : Prop := {
  bp_lower : forall x0 r, 0 <= x0 <= 1 -> length r = (n - 1)%nat ->
     exists v, b (x0 :: r) J = Some v /\ pen x0 <= v;
  bp_reach : forall t h, 0 <= t <= 1 -> (forall j, In j J -> h j = g t j) ->
     b (t :: map h (seq 2 (n - 1))) J = Some (pen t) }.

Lemma base_ok_pen n b J g : base_ok n b J g -> base_pen n b J g (fun _ => 0).
Proof. intros [A B]. now split. Qed.

Lemma uf5_h_nonneg t : 0 <= uf5_h t.
Proof. unfold uf5_h. pose proof (cos_in (4 * PI * t)). pose proof (pow2_ge_0 t). lra. Qed.

Lemma uf5_base_ok J : good 10 J -> base_pen 10 uf5_base J (centre 10) pen5.
Proof.
  intros [G1 G2]. split.
  - intros x0 r _ L. unfold uf5_base. cbn [get nth_error bind].
    match goal with |- context [msum ?f J] => destruct (msum_nonneg nat f J) as (s & -> & Hs) end.
    { intros j Hj. destruct (yj_ok 10 10 x0 r j L (G2 j Hj)) as (y & ->). cbn [bind].
      eexists. split; [reflexivity|]. apply uf5_h_nonneg. }
    cbn [bind]. rewrite div_ok by lra. cbn [bind]. eexists. split; [reflexivity|].
    fold (pen5 x0). assert (0 <= 2 * s / INR (length J)) by (apply div_nonneg; lra). lra.
  - intros t h _ E. unfold uf5_base. cbn [get nth_error bind]. rewrite msum_zero.
    + cbn [bind]. rewrite div_ok by lra. cbn [bind]. f_equal. fold (pen5 t). field. lra.
    + intros j Hj. rewrite (yj_zero 10 10) by auto. cbn [bind]. f_equal. unfold uf5_h.
      replace (4 * PI * 0) with 0 by lra. rewrite cos_0. lra.
Qed.

Lemma uf6_base_ok J : good 30 J -> base_pen 30 uf6_base J (centre 30) pen6.
Proof.
  intros G. pose proof (gj_in _ _ G) as G2. split.
  - intros x0 r _ L. unfold uf6_base. cbn [get nth_error bind].
    destruct (sum_prod_nonneg 30 (yj 30 (x0 :: r)) J G) as (v & -> & Hv).
    { intros j Hj. now apply (yj_ok 30 30); [|apply G2]. }
    cbn [bind]. eexists. split; [reflexivity|]. fold (pen6 x0). lra.
  - intros t h _ E. unfold uf6_base. cbn [get nth_error bind].
    rewrite (sum_prod_zero 30 _ J G).
    + cbn [bind]. f_equal. fold (pen6 t). lra.
    + intros j Hj. now apply (yj_zero 30 30); auto.
Qed.

(** Rewriting the objectives of one problem into the common shape. *)
Definition fits_of (a1 a2 : R -> option R) (b1 b2 : list R -> list nat -> option R) n :=
  [ (fun x => let* x0 := get x 0 in let* q := a1 x0 in
              let* b := b1 x (odd_j n) in Some (q + b));
    (fun x => let* x0 := get x 0 in let* q := a2 x0 in
              let* b := b2 x (even_j n) in Some (q + b)) ].

(** Putting two base terms together. *)
Lemma uf_curve n lo hi a1 a2 (p1 p2 pen1 pen2 : R -> R) b1 b2 g1 g2 dims :
  dims = (0, 1) :: repeat (lo, hi) (n - 1) -> (3 <= n)%nat ->
  (forall t, 0 <= t <= 1 -> a1 t = Some (p1 t)) ->
  (forall t, 0 <= t <= 1 -> a2 t = Some (p2 t)) ->
  base_pen n b1 (odd_j n) g1 pen1 -> base_pen n b2 (even_j n) g2 pen2 ->
  (forall t j, 0 <= t <= 1 -> (2 <= j)%nat -> lo <= g1 t j <= hi) ->
  (forall t j, 0 <= t <= 1 -> (2 <= j)%nat -> lo <= g2 t j <= hi) ->
  curve (mk dims (fits_of a1 a2 b1 b2 n) None) (fun t => p1 t + pen1 t) (fun t => p2 t + pen2 t).
Proof.
  intros ED Hn A1 A2 B1 B2 R1 R2.
  set (P := mk _ _ _). assert (EP : p_dims P = (0, 1) :: repeat (lo, hi) (n - 1)) by exact ED. split.
  - intros x Hx. destruct (adm_tail lo hi _ P x EP Hx) as (x0 & r & -> & Hx0 & L & F).
    destruct (bp_lower _ _ _ _ _ B1 x0 r Hx0 L) as (v1 & E1 & L1).
    destruct (bp_lower _ _ _ _ _ B2 x0 r Hx0 L) as (v2 & E2 & L2).
    exists x0, (p1 x0 + v1), (p2 x0 + v2). split; [reflexivity|]. split; [assumption|].
    split; [|lra]. unfold evaluates. unfold P, fits_of. cbn [map p_fits]. cbn [get nth_error bind].
    rewrite E1, E2, A1, A2 by assumption. reflexivity.
  - intros t Ht. set (h := fun j => if Nat.eqb (j mod 2) 0 then g2 t j else g1 t j).
    exists (t :: map h (seq 2 (n - 1))). split.
    + apply (adm_make lo hi); [assumption|assumption|]. intros j Hj. unfold h.
      destruct (Nat.eqb (j mod 2) 0); [apply R2|apply R1]; (assumption || lia).
    + unfold evaluates. unfold P, fits_of. cbn [map p_fits]. cbn [get nth_error bind].
      rewrite (bp_reach _ _ _ _ _ B1) by
        (assumption || (intros j Hj; unfold h; unfold odd_j in Hj; apply filter_In in Hj;
         destruct Hj as [_ Hj]; destruct (Nat.eqb (j mod 2) 0); [discriminate|reflexivity])).
      rewrite (bp_reach _ _ _ _ _ B2) by
        (assumption || (intros j Hj; unfold h; unfold even_j in Hj; apply filter_In in Hj;
         destruct Hj as [_ Hj]; rewrite Hj; reflexivity)).
      rewrite A1, A2 by assumption. reflexivity.
Qed.

Lemma centre_in n t j : -1 <= centre n t j <= 1.
Proof. apply sin_in. Qed.

Lemma curve_ext P p1 p2 q1 q2 :
  curve P p1 p2 -> (forall t, 0 <= t <= 1 -> p1 t = q1 t /\ p2 t = q2 t) -> curve P q1 q2.
Proof.
  intros [A B] E. split.
  - intros x Hx. destruct (A x Hx) as (t & f1 & f2 & N & Ht & V & L1 & L2).
    exists t, f1, f2. destruct (E t Ht) as [E1 E2]. rewrite <- E1, <- E2. auto.
  - intros t Ht. destruct (E t Ht) as [E1 E2]. rewrite <- E1, <- E2. auto.
Qed.

Lemma curve_same_fits P Q p1 p2 :
  p_dims P = p_dims Q ->
  (forall x, map (fun fit => fit x) (p_fits P) = map (fun fit => fit x) (p_fits Q)) ->
  curve P p1 p2 -> curve Q p1 p2.
Proof.
  intros ED EF [A B]. unfold attainable, admissible, evaluates in *. split.
  - intros x Hx. unfold admissible in Hx. rewrite <- ED in Hx.
    destruct (A x Hx) as (t & f1 & f2 & N & Ht & V & L).
    exists t, f1, f2. unfold evaluates. rewrite <- EF. auto.
  - intros t Ht. destruct (B t Ht) as (x & Hx & V). exists x. unfold admissible, evaluates.
    rewrite <- ED, <- EF. auto.
Qed.

Ltac same_fits P := intros x; unfold P, fits_of; cbn [map p_fits]; unfold bind;
  repeat match goal with
  | |- context [get x 0] => destruct (get x 0); cbn [bind]; try reflexivity
  | |- context [py_sqrt ?a] => destruct (py_sqrt a); cbn [bind]; try reflexivity
  | |- context [py_pow ?a ?b] => destruct (py_pow a b); cbn [bind]; try reflexivity
  end.

Lemma UF1_curve : curve UF1 (fun t => t) (fun t => 1 - sqrt t).
Proof.
  apply (curve_same_fits (mk (p_dims UF1)
    (fits_of Some (fun t => let* r := py_sqrt t in Some (1 - r)) uf1_base uf1_base 30) None));
    [reflexivity|same_fits UF1|].
  apply (curve_ext _ (fun t => t + 0) (fun t => 1 - sqrt t + 0)); [|intros; split; lra].
  apply (uf_curve 30 (-1) 1 _ _ _ _ (fun _ => 0) (fun _ => 0) uf1_base uf1_base
           (centre 30) (centre 30)); try reflexivity; try lia.
  - intros t Ht. rewrite sqrt_ok by lra. reflexivity.
  - apply base_ok_pen, uf1_base_ok, good_odd. lia.
  - apply base_ok_pen, uf1_base_ok, good_even. lia.
  - intros. apply centre_in.
  - intros. apply centre_in.
Qed.

Lemma uf2_centre_in t j trig : (forall u, -1 <= trig u <= 1) -> 0 <= t <= 1 ->
  -1 <= uf2_centre t j trig <= 1.
Proof.
  intros T Ht. unfold uf2_centre.
  pose proof (T (6 * PI * t + INR j * PI / 30)) as T1.
  pose proof (cos_in (24 * PI * t + 4 * INR j * PI / 30)) as C1.
  set (c := cos _) in *. set (s := trig _) in *.
  assert (Q : 0 <= t ^ 2 <= 1) by nra. set (q := t ^ 2) in *.
  assert (QC : -1 <= q * c <= 1) by nra.
  assert (A : -0.9 <= 0.3 * q * c + 0.6 * t <= 0.9) by nra.
  set (a := 0.3 * q * c + 0.6 * t) in *. nra.
Qed.

Lemma UF2_curve : curve UF2 (fun t => t) (fun t => 1 - sqrt t).
Proof.
  apply (curve_same_fits (mk (p_dims UF2)
    (fits_of Some (fun t => let* r := py_sqrt t in Some (1 - r))
       (fun x J => uf2_base x J cos) (fun x J => uf2_base x J sin) 30) None));
    [reflexivity|same_fits UF2|].
  apply (curve_ext _ (fun t => t + 0) (fun t => 1 - sqrt t + 0)); [|intros; split; lra].
  apply (uf_curve 30 (-1) 1 _ _ _ _ (fun _ => 0) (fun _ => 0) (fun x J => uf2_base x J cos)
           (fun x J => uf2_base x J sin)
           (fun t j => uf2_centre t j cos) (fun t j => uf2_centre t j sin)); try reflexivity; try lia.
  - intros t Ht. rewrite sqrt_ok by lra. reflexivity.
  - apply base_ok_pen, uf2_base_ok, good_odd. lia.
  - apply base_ok_pen, uf2_base_ok, good_even. lia.
  - intros. apply uf2_centre_in; [apply cos_in|assumption].
  - intros. apply uf2_centre_in; [apply sin_in|assumption].
Qed.

Lemma UF3_curve : curve UF3 (fun t => t) (fun t => 1 - sqrt t).
Proof.
  apply (curve_same_fits (mk (p_dims UF3)
    (fits_of Some (fun t => let* r := py_sqrt t in Some (1 - r))
       (fun x J => sum_prod_base (uf3_y x) J) (fun x J => sum_prod_base (uf3_y x) J) 30) None));
    [reflexivity|same_fits UF3|].
  apply (curve_ext _ (fun t => t + 0) (fun t => 1 - sqrt t + 0)); [|intros; split; lra].
  assert (Rg : forall t j, 0 <= t <= 1 -> (2 <= j)%nat -> 0 <= rpow t (uf3_exp j) <= 1).
  { intros t j Ht Hj. split; [apply rpow_nonneg|]. apply rpow_le_1; [assumption|].
    left. now apply uf3_exp_pos. }
  apply (uf_curve 30 0 1 _ _ _ _ (fun _ => 0) (fun _ => 0)
           (fun x J => sum_prod_base (uf3_y x) J) (fun x J => sum_prod_base (uf3_y x) J)
           (fun t j => rpow t (uf3_exp j)) (fun t j => rpow t (uf3_exp j))); try reflexivity; try lia;
    try exact Rg.
  - intros t Ht. rewrite sqrt_ok by lra. reflexivity.
  - apply base_ok_pen, uf3_base_ok, good_odd. lia.
  - apply base_ok_pen, uf3_base_ok, good_even. lia.
Qed.

Lemma UF4_curve : curve UF4 (fun t => t) (fun t => 1 - t ^ 2).
Proof.
  apply (curve_same_fits (mk (p_dims UF4)
    (fits_of Some (fun t => Some (1 - t ^ 2)) uf4_base uf4_base 30) None));
    [reflexivity|same_fits UF4|].
  apply (curve_ext _ (fun t => t + 0) (fun t => 1 - t ^ 2 + 0)); [|intros; split; lra].
  apply (uf_curve 30 (-2) 2 _ _ _ _ (fun _ => 0) (fun _ => 0) uf4_base uf4_base
           (centre 30) (centre 30)); try reflexivity; try lia.
  - apply base_ok_pen, uf4_base_ok, good_odd. lia.
  - apply base_ok_pen, uf4_base_ok, good_even. lia.
  - intros t j _ _. pose proof (centre_in 30 t j). lra.
  - intros t j _ _. pose proof (centre_in 30 t j). lra.
Qed.

Lemma UF5_curve : curve UF5 (fun t => t + pen5 t) (fun t => 1 - t + pen5 t).
Proof.
  apply (curve_same_fits (mk (p_dims UF5)
    (fits_of Some (fun t => Some (1 - t)) uf5_base uf5_base 10) None));
    [reflexivity|same_fits UF5|].
  apply (uf_curve 10 (-1) 1 _ _ _ _ pen5 pen5 uf5_base uf5_base
           (centre 10) (centre 10)); try reflexivity; try lia.
  - apply uf5_base_ok, good_odd. lia.
  - apply uf5_base_ok, good_even. lia.
  - intros. apply centre_in.
  - intros. apply centre_in.
Qed.

Lemma UF6_curve : curve UF6 (fun t => t + pen6 t) (fun t => 1 - t + pen6 t).
Proof.
  apply (curve_same_fits (mk (p_dims UF6)
    (fits_of Some (fun t => Some (1 - t)) uf6_base uf6_base 30) None));
    [reflexivity|same_fits UF6|].
  apply (uf_curve 30 (-1) 1 _ _ _ _ pen6 pen6 uf6_base uf6_base
           (centre 30) (centre 30)); try reflexivity; try lia.
  - apply uf6_base_ok, good_odd. lia.
  - apply uf6_base_ok, good_even. lia.
  - intros. apply centre_in.
  - intros. apply centre_in.
Qed.

Lemma UF7_curve : curve UF7 (fun t => rpow t 0.2) (fun t => 1 - rpow t 0.2).
Proof.
  apply (curve_same_fits (mk (p_dims UF7)
    (fits_of (fun t => py_pow t 0.2) (fun t => let* q := py_pow t 0.2 in Some (1 - q))
       uf7_base uf7_base 30) None));
    [reflexivity|same_fits UF7|].
  apply (curve_ext _ (fun t => rpow t 0.2 + 0) (fun t => 1 - rpow t 0.2 + 0)); [|intros; split; lra].
  apply (uf_curve 30 (-1) 1 _ _ _ _ (fun _ => 0) (fun _ => 0) uf7_base uf7_base
           (centre 30) (centre 30)); try reflexivity; try lia.
  - intros t Ht. apply pow_ok; lra.
  - intros t Ht. rewrite pow_ok by lra. reflexivity.
  - apply base_ok_pen, uf7_base_ok, good_odd. lia.
  - apply base_ok_pen, uf7_base_ok, good_even. lia.
  - intros. apply centre_in.
  - intros. apply centre_in.
Qed.
