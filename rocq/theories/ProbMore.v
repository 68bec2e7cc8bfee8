(** Published fronts: optimality, coverage, and the problems where they are wrong. *)
From Coq Require Import Reals List Lra Lia Psatz.
From Verif Require Import ProbModel ProbSpec ProbProofs ProbCurve.
Import ListNotations.
Local Open Scope R_scope.

Lemma some_inj A (a b : A) : Some a = Some b -> a = b.
Proof. congruence. Qed.

(** ** Fronts on the curve [1 - sqrt t] *)

Lemma front_sqrt_eq n : (2 <= n)%nat ->
  front_sqrt (points n) = Some (map (fun x => [x; 1 - sqrt x]) (points n)).
Proof.
  intros Hn. unfold front_sqrt. apply mmap_ok. intros x Hx. apply points_in in Hx; [|assumption].
  rewrite sqrt_ok by lra. reflexivity.
Qed.

Lemma points_ne n : (1 <= n)%nat -> points n <> [].
Proof. intros Hn E. pose proof (points_0 n Hn) as H. rewrite E in H. destruct H. Qed.

Lemma map_ne A B (f : A -> B) l : l <> [] -> map f l <> [].
Proof. destruct l; [contradiction|discriminate]. Qed.

Lemma INR149 : INR (150 - 1) = 149.
Proof. cbn [Nat.sub]. rewrite INR_IZR_INZ. reflexivity. Qed.

Lemma sqrt_mono s t : 0 <= s <= t -> sqrt s <= sqrt t.
Proof. intros H. apply sqrt_le_1; lra. Qed.

Lemma sqrt_front_optimal P :
  curve P (fun t => t) (fun t => 1 - sqrt t) -> p_front P = front_sqrt (points 150) ->
  front_optimal P.
Proof.
  intros C E. rewrite front_sqrt_eq in E by lia.
  apply (curve_optimal _ _ _ _ C E).
  - apply map_ne, points_ne. lia.
  - intros p Hp. apply in_map_iff in Hp. destruct Hp as (t & <- & Ht).
    apply points_in in Ht; [|lia]. exists t. split; [assumption|]. split; [reflexivity|].
    intros s Hs L1 L2. assert (Q : sqrt t <= sqrt s) by lra.
    apply sqrt_le_0 in Q; [|lra|lra]. assert (s = t) by lra. subst s. split; reflexivity.
Qed.

Lemma sqrt_front_covers P :
  curve P (fun t => t) (fun t => 1 - sqrt t) -> p_front P = front_sqrt (points 150) ->
  front_covers (1 / 149) P.
Proof.
  intros C E. rewrite front_sqrt_eq in E by lia.
  apply (curve_covers _ _ _ _ _ C E).
  intros s Hs. destruct (points_above 150 s) as (u & Hu & L1 & L2); [lia|assumption|].
  rewrite INR149 in L2. exists u, (1 - sqrt u). split.
  - apply in_map_iff. exists u. split; [reflexivity|assumption].
  - pose proof (sqrt_mono s u). lra.
Qed.

(** ** Fronts on the curve [1 - t^2] *)

Lemma sq_front_optimal P (h : R -> R) : (forall t, h t = 1 - t * t) ->
  curve P (fun t => t) h -> p_front P = Some (map (fun x => [x; h x]) (points 150)) ->
  front_optimal P.
Proof.
  intros Hh C E. apply (curve_optimal _ _ _ _ C E).
  - apply map_ne, points_ne. lia.
  - intros p Hp. apply in_map_iff in Hp. destruct Hp as (t & <- & Ht).
    apply points_in in Ht; [|lia]. exists t. split; [assumption|]. split; [reflexivity|].
    intros s Hs L1 L2. rewrite !Hh in L2. assert (s = t) by nra. subst s. split; reflexivity.
Qed.

Lemma sq_front_covers P (h : R -> R) : (forall t, h t = 1 - t * t) ->
  curve P (fun t => t) h -> p_front P = Some (map (fun x => [x; h x]) (points 150)) ->
  front_covers (1 / 149) P.
Proof.
  intros Hh C E. apply (curve_covers _ _ _ _ _ C E).
  intros s Hs. destruct (points_above 150 s) as (u & Hu & L1 & L2); [lia|assumption|].
  rewrite INR149 in L2. exists u, (h u). split.
  - apply in_map_iff. exists u. split; [reflexivity|assumption].
  - rewrite !Hh. nra.
Qed.

Lemma ZDT6_optimal : front_optimal ZDT6.
Proof.
  apply (curve_optimal _ _ _ _ ZDT6_curve eq_refl).
  - apply map_ne, points_ne. lia.
  - intros p Hp. apply in_map_iff in Hp. destruct Hp as (t & <- & Ht).
    apply points_in in Ht; [|lia]. exists t. split; [assumption|]. split; [reflexivity|].
    intros s Hs L1 L2. pose proof (f1e_nonneg s (proj1 Hs)). pose proof (f1e_nonneg t (proj1 Ht)).
    assert (Q : f1e s = f1e t) by nra. rewrite Q. split; reflexivity.
Qed.

(** ** UF7 *)

Lemma rpow_fifth u : 0 <= u -> rpow (u ^ 5) 0.2 = u.
Proof.
  intros Hu. unfold rpow. destruct (Req_EM_T (u ^ 5) 0) as [E|E].
  - destruct (Req_dec u 0) as [->|N]; [reflexivity|]. exfalso.
    apply (pow_nonzero u 5 N E).
  - assert (P : 0 < u) by (destruct Hu as [Hu|<-]; [assumption|exfalso; apply E; ring]).
    rewrite <- Rpower_pow by assumption. rewrite Rpower_mult.
    replace (INR 5 * 0.2) with 1 by (cbn [INR]; lra). now apply Rpower_1.
Qed.

Lemma pow5_in u : 0 <= u <= 1 -> 0 <= u ^ 5 <= 1.
Proof.
  intros H. split; [apply pow_le; lra|]. rewrite <- (pow1 5). apply pow_incr. lra.
Qed.

Lemma UF7_optimal : front_optimal UF7.
Proof.
  apply (curve_optimal _ _ _ _ UF7_curve eq_refl).
  - apply map_ne, points_ne. lia.
  - intros p Hp. apply in_map_iff in Hp. destruct Hp as (u & <- & Hu).
    apply points_in in Hu; [|lia]. exists (u ^ 5). split; [now apply pow5_in|].
    rewrite rpow_fifth by lra. split; [reflexivity|]. intros s Hs L1 L2. lra.
Qed.

Lemma UF7_covers : front_covers (1 / 149) UF7.
Proof.
  apply (curve_covers _ _ _ _ _ UF7_curve eq_refl).
  intros s Hs. destruct (points_above 150 (rpow s 0.2)) as (u & Hu & L1 & L2); [lia| |].
  - split; [apply rpow_nonneg|]. apply rpow_le_1; lra.
  - rewrite INR149 in L2. exists u, (1 - u). split; [|lra].
    apply in_map_iff. exists u. split; [reflexivity|assumption].
Qed.

(** ** UF5 *)

Lemma pen5_nonneg t : 0 <= pen5 t.
Proof. unfold pen5. pose proof (Rabs_pos (sin (2 * 10 * PI * t))). lra. Qed.

Lemma sin_nat_PI i : sin (INR i * PI) = 0.
Proof. apply sin_eq_0_1. exists (Z.of_nat i). now rewrite <- INR_IZR_INZ. Qed.

Lemma cos_nat_PI i : cos (INR i * PI) = 1 \/ cos (INR i * PI) = -1.
Proof.
  pose proof (sin2_cos2 (INR i * PI)) as H. unfold Rsqr in H. rewrite sin_nat_PI in H.
  assert (Q : (cos (INR i * PI) - 1) * (cos (INR i * PI) + 1) = 0) by lra.
  apply Rmult_integral in Q. lra.
Qed.

Lemma pen5_node i : pen5 (INR i / (2 * 10)) = 0.
Proof.
  unfold pen5. replace (2 * 10 * PI * (INR i / (2 * 10))) with (INR i * PI) by field.
  rewrite sin_nat_PI, Rabs_R0. lra.
Qed.

Lemma UF5_optimal : front_optimal UF5.
Proof.
  apply (curve_optimal _ _ _ _ UF5_curve eq_refl).
  - discriminate.
  - intros p Hp. apply in_map_iff in Hp. destruct Hp as (i & <- & Hi). apply in_seq in Hi.
    exists (INR i / (2 * 10)).
    assert (B : 0 <= INR i <= 20).
    { split; [apply pos_INR|]. replace 20 with (INR 20) by (rewrite INR_IZR_INZ; reflexivity).
      apply le_INR. lia. }
    split; [lra|]. rewrite pen5_node. split; [f_equal; [lra|f_equal; lra]|].
    intros s Hs L1 L2. pose proof (pen5_nonneg s). lra.
Qed.

(** Away from the nodes the penalty outweighs the gain. *)
Lemma pen5_lower i e : -1 / 2 <= e <= 1 / 2 ->
  Rabs e / 20 <= pen5 (INR i / 20 + e / 20).
Proof.
  intros He. unfold pen5.
  replace (2 * 10 * PI * (INR i / 20 + e / 20)) with (INR i * PI + PI * e) by field.
  rewrite sin_plus, sin_nat_PI, Rmult_0_l, Rplus_0_l, Rabs_mult.
  replace (Rabs (cos (INR i * PI))) with 1.
  2: { destruct (cos_nat_PI i) as [-> | ->]; [rewrite Rabs_R1; reflexivity|rewrite (Rabs_left (-1)) by lra; lra]. }
  rewrite Rmult_1_l.
  assert (S : forall u, 0 <= u <= PI / 2 -> u / 3 <= sin u).
  { intros u Hu. pose proof PI_4 as P4. pose proof PI_RGT_0.
    destruct (sin_bound u 0) as [L _]; [lra|lra|].
    unfold sin_approx, sin_term in L. cbn [sum_f_R0 pow Nat.mul Nat.add fact] in L.
    rewrite !INR_IZR_INZ in L. cbn in L. nra. }
  assert (PA : Rabs (sin (PI * e)) = sin (PI * Rabs e)).
  { pose proof PI_RGT_0. destruct (Rle_dec 0 e) as [P|P].
    - rewrite (Rabs_pos_eq e) by lra. apply Rabs_pos_eq. apply sin_ge_0; nra.
    - rewrite (Rabs_left1 e) by lra. replace (PI * - e) with (- (PI * e)) by ring.
      rewrite sin_neg. apply Rabs_left1.
      rewrite <- (Ropp_involutive (PI * e)), sin_neg.
      assert (0 <= sin (- (PI * e))) by (apply sin_ge_0; nra). lra. }
  rewrite PA. pose proof PI2_3_2 as P3.
  assert (HE : 0 <= Rabs e <= 1 / 2).
  { split; [apply Rabs_pos|]. apply Rabs_le. lra. }
  specialize (S (PI * Rabs e)). assert (0 <= PI * Rabs e <= PI / 2) by nra.
  assert (3 * Rabs e <= PI * Rabs e) by nra. lra.
Qed.

Lemma UF5_covers : front_covers 0 UF5.
Proof.
  apply (curve_covers _ _ _ _ _ UF5_curve eq_refl).
  intros s Hs.
  assert (N : exists i, (i <= 20)%nat /\ -1 / 2 <= 20 * s - INR i <= 1 / 2).
  { destruct (points_above 21 s) as (u & Hu & L1 & L2); [lia|assumption|].
    apply in_map_iff in Hu. destruct Hu as (i & <- & Hi). apply in_seq in Hi.
    replace (INR (21 - 1)) with 20 in * by (cbn [Nat.sub]; rewrite INR_IZR_INZ; reflexivity).
    destruct (Rle_dec (INR i - 20 * s) (1 / 2)).
    - exists i. split; [lia|]. lra.
    - destruct i as [|i]; [cbn [INR] in *; lra|]. exists i. split; [lia|].
      rewrite S_INR in *. lra. }
  destruct N as (i & Hi & Be).
  exists (INR i / (2 * 10)), (1 - INR i / (2 * 10)). split.
  - apply in_map_iff. exists i. split; [reflexivity|]. apply in_seq. lia.
  - pose proof (pen5_lower i (20 * s - INR i) Be) as L.
    replace (INR i / 20 + (20 * s - INR i) / 20) with s in L by field.
    pose proof (Rle_abs (20 * s - INR i)). pose proof (Rle_abs (- (20 * s - INR i))) as L2. rewrite Rabs_Ropp in L2. lra.
Qed.

(** ** ackley *)

Lemma adm_two P lo hi x : p_dims P = [(lo, hi); (lo, hi)] -> admissible P x ->
  exists a b, x = [a; b] /\ lo <= a <= hi /\ lo <= b <= hi.
Proof.
  unfold admissible. intros -> H. inversion H as [|d a ds r Ha Hr]; subst.
  inversion Hr as [|d b ds' r' Hb Hr']; subst. inversion Hr'; subst. cbn in *. eauto.
Qed.

Lemma exp_le a b : a <= b -> exp a <= exp b.
Proof. intros [H| ->]; [left; now apply exp_increasing|lra]. Qed.

Lemma ackley_nonneg a b : exists v, ackley_fit [a; b] = Some v /\ 0 <= v.
Proof.
  unfold ackley_fit. cbn [get nth_error bind].
  assert (0 <= 0.5 * (a ^ 2 + b ^ 2)) by (pose proof (pow2_ge_0 a); pose proof (pow2_ge_0 b); lra).
  rewrite sqrt_ok by assumption. cbn [bind]. eexists. split; [reflexivity|].
  set (r := sqrt _). assert (0 <= r) by apply sqrt_pos.
  assert (exp (-0.2 * r) <= 1) by (rewrite <- exp_0; apply exp_le; lra).
  assert (exp (0.5 * (cos (2 * PI * a) + cos (2 * PI * b))) <= exp 1).
  { apply exp_le. pose proof (cos_in (2 * PI * a)). pose proof (cos_in (2 * PI * b)). lra. }
  lra.
Qed.

Lemma ackley_zero : ackley_fit [0; 0] = Some 0.
Proof.
  unfold ackley_fit. cbn [get nth_error bind].
  replace (0.5 * (0 ^ 2 + 0 ^ 2)) with 0 by lra. rewrite sqrt_ok by lra. cbn [bind].
  rewrite sqrt_0. replace (2 * PI * 0) with 0 by lra. rewrite cos_0.
  replace (-0.2 * 0) with 0 by lra. replace (0.5 * (1 + 1)) with 1 by lra.
  rewrite exp_0. f_equal. lra.
Qed.

Lemma ackley_att f : attainable ackley f -> exists v, f = [v; v] /\ 0 <= v.
Proof.
  intros (x & Hx & E). destruct (adm_two ackley (-1.5) 1.5 x eq_refl Hx) as (a & b & -> & _).
  destruct (ackley_nonneg a b) as (v & Ev & Hv). exists v. split; [|assumption].
  apply (evaluates_unique ackley [a; b]); [assumption|]. unfold evaluates. cbn [map p_fits ackley]. rewrite Ev. reflexivity.
Qed.

Lemma ackley_attains : attainable ackley [0; 0].
Proof.
  exists [0; 0]. split.
  - unfold admissible. cbn. repeat constructor; cbn; lra.
  - unfold evaluates. cbn [map p_fits ackley]. rewrite ackley_zero. reflexivity.
Qed.

Lemma ackley_optimal : front_optimal ackley.
Proof.
  exists [[0; 0]]. split; [reflexivity|]. split; [discriminate|].
  intros p [<-|[]]. split; [apply ackley_attains|].
  intros f Hf (D & N). destruct (ackley_att f Hf) as (v & -> & Hv).
  apply Forall2_pair in D. apply N. f_equal; [lra|f_equal; lra].
Qed.

Lemma ackley_covers : front_covers 0 ackley.
Proof.
  exists [[0; 0]]. split; [reflexivity|]. intros f Hf. exists [0; 0]. split; [now left|].
  destruct (ackley_att f Hf) as (v & -> & Hv). apply Forall2_pair. lra.
Qed.

(** ** ZDT3 *)

Definition c_val (x : R) : R := 1 - sqrt x - x * sin (10 * PI * x).

Lemma ZDT3_front : p_front ZDT3 = Some (map (fun p => [fst p; snd p])
  (trim_dominated (keep_descents (map (fun x => (x, c_val x)) (points 300))))).
Proof.
  cbn [p_front ZDT3 emoa]. unfold front_c.
  rewrite (mmap_ok _ _ _ (fun x => (x, c_val x))); [reflexivity|].
  intros x Hx. apply points_in in Hx; [|lia]. unfold c_curve. rewrite sqrt_ok by lra. reflexivity.
Qed.

Lemma descents_in l : forall prev p, In p (descents prev l) -> In p l.
Proof.
  induction l as [|[x y] r IH]; intros prev p H; cbn in *; [assumption|].
  destruct (Rle_dec prev y); [right; now apply (IH y)|].
  destruct H as [<-|H]; [now left|right; now apply (IH y)].
Qed.

Lemma keep_descents_in l p : In p (keep_descents l) -> In p l.
Proof.
  destruct l as [|[x y] r]; cbn; [auto|]. intros [<-|H]; [now left|right; now apply (descents_in r y)].
Qed.

Lemma dominates2_spec p q : dominates2 p q = true <->
  fst p <= fst q /\ snd p <= snd q /\ p <> q.
Proof.
  destruct p as [a b], q as [c d]. unfold dominates2. cbn [fst snd].
  destruct (Rle_dec a c); [|split; [discriminate|tauto]].
  destruct (Rle_dec b d); [|split; [discriminate|tauto]].
  destruct (Rlt_dec a c).
  { split; [intros _|reflexivity]. repeat split; try assumption. intros E. injection E. lra. }
  destruct (Rlt_dec b d).
  { split; [intros _|reflexivity]. repeat split; try assumption. intros E. injection E. lra. }
  split; [discriminate|]. intros (_ & _ & N). exfalso. apply N. f_equal; lra.
Qed.

Lemma trim_mutual l p q : In p (trim_dominated l) -> In q (trim_dominated l) ->
  ~ (fst p <= fst q /\ snd p <= snd q /\ p <> q).
Proof.
  unfold trim_dominated. intros Hp Hq D. apply filter_In in Hp, Hq.
  destruct Hp as [Hp _]. destruct Hq as [_ Hq].
  apply dominates2_spec in D. apply Bool.negb_true_iff in Hq.
  assert (existsb (fun p => dominates2 p q) l = true) by (apply existsb_exists; eauto). congruence.
Qed.

(** ** The three-objective problems *)

Record good3 (J : list nat) : Prop := {
  g3_ne : INR (length J) > 0;
  g3_in : forall j, In j J -> (3 <= j <= 30)%nat }.

Lemma good3_filter f : (exists j, (3 <= j <= 30)%nat /\ f j = true) ->
  good3 (filter f (seq 3 (30 - 2))).
Proof.
  intros (k & Hk & Ek). split.
  - apply lt_0_INR. assert (I : In k (filter f (seq 3 (30 - 2)))).
    { apply filter_In. split; [apply in_seq; lia|assumption]. }
    destruct (filter f (seq 3 (30 - 2))); [destruct I|cbn; lia].
  - intros j Hj. apply filter_In in Hj. destruct Hj as [Hj _]. apply in_seq in Hj. lia.
Qed.

Lemma good3_j1 : good3 (j1 30).
Proof. apply good3_filter. exists 3%nat. split; [lia|reflexivity]. Qed.
Lemma good3_j2 : good3 (j2 30).
Proof. apply good3_filter. exists 3%nat. split; [lia|reflexivity]. Qed.
Lemma good3_j3 : good3 (j3 30).
Proof. apply good3_filter. exists 4%nat. split; [lia|reflexivity]. Qed.

Definition centre3 (x0 x1 : R) (j : nat) : R := 2 * x1 * sin (2 * PI * x0 + INR j * PI / 30).
Definition best3 (x0 x1 : R) : list R := x0 :: x1 :: map (centre3 x0 x1) (seq 3 28).

Lemma y3_ok x0 x1 r j : length r = 28%nat -> (3 <= j <= 30)%nat ->
  exists y, y3 (x0 :: x1 :: r) j = Some y.
Proof.
  intros L Hj. unfold y3, get. cbn [nth_error bind].
  destruct (nth_error (x0 :: x1 :: r) (j - 1)) eqn:E; [cbn [bind]; eauto|].
  apply nth_error_None in E. cbn [length] in E. lia.
Qed.

Lemma y3_zero x0 x1 j : (3 <= j <= 30)%nat -> y3 (best3 x0 x1) j = Some 0.
Proof.
  intros Hj. unfold y3, best3, get. cbn [nth_error bind].
  destruct j as [|[|[|j]]]; try lia. cbn [nth_error Nat.sub].
  rewrite nth_error_map, nth_error_nth' with (d := 0%nat) by (rewrite seq_length; lia).
  rewrite seq_nth by lia. cbn [option_map bind Nat.add]. f_equal. unfold centre3. lra.
Qed.

Record base3 (b : list R -> list nat -> option R) : Prop := {
  b3_nonneg : forall J x0 x1 r, good3 J -> length r = 28%nat ->
     exists v, b (x0 :: x1 :: r) J = Some v /\ 0 <= v;
  b3_zero : forall J x0 x1, good3 J -> b (best3 x0 x1) J = Some 0 }.

Lemma base3_of (h : R -> R) : (forall y, 0 <= h y) -> h 0 = 0 ->
  base3 (fun x J => let* s := msum (fun j => let* y := y3 x j in Some (h y)) J in
                    py_div (2 * s) (INR (length J))).
Proof.
  intros H1 H0. split.
  - intros J x0 x1 r [G1 G2] L.
    match goal with |- context [msum ?f J] => destruct (msum_nonneg nat f J) as (s & -> & Hs) end.
    { intros j Hj. destruct (y3_ok x0 x1 r j L (G2 j Hj)) as (y & ->). cbn [bind]. eauto. }
    cbn [bind]. rewrite div_ok by lra. eexists. split; [reflexivity|]. apply div_nonneg; lra.
  - intros J x0 x1 [G1 G2]. rewrite msum_zero.
    + cbn [bind]. rewrite div_ok by lra. f_equal. field. lra.
    + intros j Hj. rewrite y3_zero by auto. cbn [bind]. now rewrite H0.
Qed.

Lemma uf8_base3 : base3 uf8_base.
Proof. apply (base3_of (fun y => y ^ 2)); [apply pow2_ge_0|ring]. Qed.

Lemma uf10_base3 : base3 uf10_base.
Proof.
  apply (base3_of (fun y => 4 * y ^ 2 - cos (8 * PI * y) + 1)).
  - intros y. pose proof (cos_in (8 * PI * y)). pose proof (pow2_ge_0 y). lra.
  - replace (8 * PI * 0) with 0 by lra. rewrite cos_0. lra.
Qed.

Lemma adm3 P x : p_dims P = [(0, 1); (0, 1)] ++ repeat (-2, 2) 28 -> admissible P x ->
  exists x0 x1 r, x = x0 :: x1 :: r /\ 0 <= x0 <= 1 /\ 0 <= x1 <= 1 /\ length r = 28%nat.
Proof.
  intros E H. pose proof (adm_length _ _ H) as L. unfold admissible in H. rewrite E in *.
  inversion H as [|d x0 ds r H0 Hr]; subst. inversion Hr as [|d x1 ds' r' H1 Hr']; subst.
  cbn in H0, H1. exists x0, x1, r'. repeat split; try lra. cbn [length app] in L.
  rewrite repeat_length in L. lia.
Qed.

Lemma adm3_best P x0 x1 : p_dims P = [(0, 1); (0, 1)] ++ repeat (-2, 2) 28 ->
  0 <= x0 <= 1 -> 0 <= x1 <= 1 -> admissible P (best3 x0 x1).
Proof.
  intros E H0 H1. unfold admissible. rewrite E. unfold best3. cbn [app].
  constructor; [assumption|]. constructor; [assumption|].
  assert (G : forall n k, Forall2 (fun (d : R * R) v => fst d <= v <= snd d)
                            (repeat (-2, 2) n) (map (centre3 x0 x1) (seq k n))); [|apply G].
  induction n as [|n IH]; intros k; cbn [repeat seq map]; constructor.
  - cbn. unfold centre3. pose proof (sin_in (2 * PI * x0 + INR k * PI / 30)). nra.
  - apply IH.
Qed.

Definition s1 x0 x1 := cos (0.5 * x0 * PI) * cos (0.5 * x1 * PI).
Definition s2 x0 x1 := cos (0.5 * x0 * PI) * sin (0.5 * x1 * PI).
Definition s3 x0 := sin (0.5 * x0 * PI).

Lemma quarter t : 0 <= t <= 1 -> 0 <= cos (0.5 * t * PI) /\ 0 <= sin (0.5 * t * PI).
Proof.
  intros Ht. pose proof PI_RGT_0. split; [apply cos_ge_0|apply sin_ge_0]; nra.
Qed.

Lemma on_sphere x0 x1 : (s1 x0 x1) ^ 2 + (s2 x0 x1) ^ 2 + (s3 x0) ^ 2 = 1.
Proof.
  unfold s1, s2, s3. pose proof (sin2_cos2 (0.5 * x0 * PI)) as A. pose proof (sin2_cos2 (0.5 * x1 * PI)) as B.
  unfold Rsqr in *.
  set (c := cos (0.5 * x0 * PI)) in *. set (s := sin (0.5 * x0 * PI)) in *.
  set (c' := cos (0.5 * x1 * PI)) in *. set (s' := sin (0.5 * x1 * PI)) in *.
  replace ((c * c') ^ 2 + (c * s') ^ 2 + s ^ 2) with (c * c * (s' * s' + c' * c') + s * s) by ring.
  rewrite B. lra.
Qed.

Lemma sphere_below b x : base3 b -> admissible (sphere_problem b) x ->
  exists x0 x1 f1 f2 f3, 0 <= x0 <= 1 /\ 0 <= x1 <= 1 /\
    evaluates (sphere_problem b) x [f1; f2; f3] /\
    s1 x0 x1 <= f1 /\ s2 x0 x1 <= f2 /\ s3 x0 <= f3.
Proof.
  intros B H. destruct (adm3 (sphere_problem b) _ eq_refl H) as (x0 & x1 & r & -> & H0 & H1 & L).
  destruct (b3_nonneg _ B _ x0 x1 r good3_j1 L) as (v1 & E1 & P1).
  destruct (b3_nonneg _ B _ x0 x1 r good3_j2 L) as (v2 & E2 & P2).
  destruct (b3_nonneg _ B _ x0 x1 r good3_j3 L) as (v3 & E3 & P3).
  exists x0, x1, (s1 x0 x1 + v1), (s2 x0 x1 + v2), (s3 x0 + v3).
  repeat split; try lra. unfold evaluates, sphere_problem. cbn [map p_fits]. cbn [get nth_error bind].
  rewrite E1, E2, E3. reflexivity.
Qed.

Lemma sphere_reach b x0 x1 : base3 b -> 0 <= x0 <= 1 -> 0 <= x1 <= 1 ->
  attainable (sphere_problem b) [s1 x0 x1; s2 x0 x1; s3 x0].
Proof.
  intros B H0 H1. exists (best3 x0 x1). split; [now apply adm3_best|].
  unfold evaluates, sphere_problem. cbn [map p_fits].
  rewrite (b3_zero _ B (j1 30) x0 x1 good3_j1), (b3_zero _ B (j2 30) x0 x1 good3_j2),
    (b3_zero _ B (j3 30) x0 x1 good3_j3).
  unfold best3. cbn [get nth_error bind]. unfold s1, s2, s3. rewrite !Rplus_0_r. reflexivity.
Qed.

(** Every point of the sphere with non-negative coordinates is reached. *)
Lemma angle c : 0 <= c <= 1 ->
  exists t, 0 <= t <= 1 /\ sin (0.5 * t * PI) = c /\ cos (0.5 * t * PI) = sqrt (1 - c ^ 2).
Proof.
  intros Hc. exists (2 * asin c / PI). pose proof PI_RGT_0 as P.
  pose proof (asin_bound c) as B.
  assert (EA : 0.5 * (2 * asin c / PI) * PI = asin c).
  { replace 0.5 with (/ 2) by lra. field. lra. }
  rewrite EA.
  assert (A0 : 0 <= asin c).
  { destruct (Rle_dec 0 (asin c)); [assumption|].
    assert (sin (asin c) < 0) by (apply sin_lt_0_var; lra). rewrite sin_asin in *; lra. }
  split.
  - split.
    + apply div_nonneg; lra.
    + apply (Rmult_le_reg_r PI); [assumption|]. unfold Rdiv. rewrite Rmult_assoc, Rinv_l by lra. lra.
  - split; [apply sin_asin; lra|]. rewrite cos_asin by lra. f_equal. unfold Rsqr. ring.
Qed.

Lemma sphere_point b x y z : base3 b -> 0 <= x -> 0 <= y -> 0 <= z -> x ^ 2 + y ^ 2 + z ^ 2 = 1 ->
  attainable (sphere_problem b) [x; y; z].
Proof.
  intros B Hx Hy Hz E.
  destruct (angle z) as (x0 & H0 & S0 & C0); [split; [assumption|nra]|].
  set (rho := sqrt (1 - z ^ 2)) in *.
  assert (R2 : rho * rho = x ^ 2 + y ^ 2).
  { unfold rho. rewrite sqrt_sqrt; nra. }
  assert (R0 : 0 <= rho) by apply sqrt_pos.
  assert (X : exists x1, 0 <= x1 <= 1 /\ rho * cos (0.5 * x1 * PI) = x /\ rho * sin (0.5 * x1 * PI) = y).
  { destruct (Req_dec rho 0) as [Z|N].
    - exists 0. rewrite Z in *. assert (x = 0) by nra. assert (y = 0) by nra. subst. lra.
    - assert (Q : 0 <= y / rho <= 1).
      { split; [apply div_nonneg; lra|]. apply (Rmult_le_reg_r rho); [lra|].
        unfold Rdiv. rewrite Rmult_assoc, Rinv_l by assumption. nra. }
      destruct (angle (y / rho) Q) as (x1 & H1 & S1 & C1). exists x1. split; [assumption|].
      rewrite S1, C1. split; [|field; assumption].
      replace (1 - (y / rho) ^ 2) with ((x / rho) ^ 2).
      + rewrite <- Rsqr_pow2, sqrt_Rsqr by (apply div_nonneg; lra). field. assumption.
      + replace ((y / rho) ^ 2) with (y ^ 2 / (rho * rho)) by (field; assumption).
        replace ((x / rho) ^ 2) with (x ^ 2 / (rho * rho)) by (field; assumption).
        rewrite R2. field. nra. }
  destruct X as (x1 & H1 & X1 & X2).
  pose proof (sphere_reach b x0 x1 B H0 H1) as A. unfold s1, s2, s3 in A.
  rewrite S0, C0, X1, X2 in A. exact A.
Qed.

Lemma Forall2_triple (R' : R -> R -> Prop) a b c d e f :
  Forall2 R' [a; b; c] [d; e; f] <-> R' a d /\ R' b e /\ R' c f.
Proof.
  split.
  - intros H. inversion H as [|? ? ? ? H1 H2]; subst. inversion H2 as [|? ? ? ? H3 H4]; subst.
    inversion H4; subst. tauto.
  - intros (H1 & H2 & H3). repeat constructor; assumption.
Qed.

Lemma sphere_optimal b x y z f : base3 b -> 0 <= x -> 0 <= y -> 0 <= z ->
  x ^ 2 + y ^ 2 + z ^ 2 = 1 -> attainable (sphere_problem b) f -> ~ better f [x; y; z].
Proof.
  intros B Hx Hy Hz E (v & Hv & Ev) (D & N).
  destruct (sphere_below b v B Hv) as (x0 & x1 & f1 & f2 & f3 & H0 & H1 & Ev' & L1 & L2 & L3).
  assert (f = [f1; f2; f3]) by (now apply (evaluates_unique (sphere_problem b) v)). subst f.
  apply Forall2_triple in D. destruct D as (D1 & D2 & D3).
  pose proof (on_sphere x0 x1) as S. destruct (quarter x0 H0) as [C0 S0]. destruct (quarter x1 H1) as [C1 S1].
  assert (P1 : 0 <= s1 x0 x1) by (apply Rmult_le_pos; assumption).
  assert (P2 : 0 <= s2 x0 x1) by (apply Rmult_le_pos; assumption).
  assert (P3 : 0 <= s3 x0) by assumption.
  apply N.
  assert (s1 x0 x1 ^ 2 <= x ^ 2) by (apply pow_incr; lra).
  assert (s2 x0 x1 ^ 2 <= y ^ 2) by (apply pow_incr; lra).
  assert (s3 x0 ^ 2 <= z ^ 2) by (apply pow_incr; lra).
  assert (s1 x0 x1 = x) by nra. assert (s2 x0 x1 = y) by nra. assert (s3 x0 = z) by nra.
  f_equal; [lra|f_equal; [lra|f_equal; lra]].
Qed.

Lemma UF9_eval x0 x1 r : length r = 28%nat -> exists v1 v2 v3, 0 <= v1 /\ 0 <= v2 /\ 0 <= v3 /\
  evaluates UF9 (x0 :: x1 :: r)
    [0.5 * (uf9_bump x0 + 2 * x0) * x1 + v1; 0.5 * (uf9_bump x0 - 2 * x0 + 2) * x1 + v2; 1 - x1 + v3].
Proof.
  intros L.
  destruct (b3_nonneg _ uf8_base3 _ x0 x1 r good3_j1 L) as (v1 & E1 & P1).
  destruct (b3_nonneg _ uf8_base3 _ x0 x1 r good3_j2 L) as (v2 & E2 & P2).
  destruct (b3_nonneg _ uf8_base3 _ x0 x1 r good3_j3 L) as (v3 & E3 & P3).
  exists v1, v2, v3. split; [assumption|]. split; [assumption|]. split; [assumption|].
  unfold evaluates, UF9. cbn [map p_fits]. cbn [get nth_error bind]. rewrite E1, E2, E3. reflexivity.
Qed.

Lemma sphere_front_eq : sphere_front = Some (map (fun xy : R * R =>
    [fst xy; snd xy; rpow (- fst xy ^ 2 - snd xy ^ 2 + 1) (1 / 3)])
    (filter (fun xy => if Rle_dec (fst xy ^ 2 + snd xy ^ 2) 1 then true else false) grid12)).
Proof.
  unfold sphere_front. apply mmap_ok. intros [x y] H. apply filter_In in H. destruct H as [_ H].
  cbn [fst snd] in *. destruct (Rle_dec (x ^ 2 + y ^ 2) 1); [|discriminate].
  rewrite pow_ok by lra. reflexivity.
Qed.

Lemma in_grid12 x y : In x (points 12) -> In y (points 12) -> In (x, y) grid12.
Proof. intros Hx Hy. unfold grid12. now apply in_prod. Qed.

Lemma point12 i : (i <= 11)%nat -> In (INR i / 11) (points 12).
Proof.
  intros Hi. apply in_map_iff. exists i. split; [|apply in_seq; lia].
  f_equal. cbn [Nat.sub]. rewrite INR_IZR_INZ. reflexivity.
Qed.

(** The cube root exceeds the square root between 0 and 1. *)
Lemma cube_root_bigger q : 0 < q < 1 -> sqrt q < rpow q (1 / 3).
Proof.
  intros Hq. unfold rpow. destruct (Req_EM_T q 0); [lra|].
  rewrite <- Rpower_sqrt by lra. unfold Rpower. apply exp_increasing.
  assert (ln q < 0) by (rewrite <- ln_1; apply ln_increasing; lra). lra.
Qed.

(** ** Bounds on pi *)

Lemma cos_upper a : -2 <= a <= 2 -> cos a <= 1 - a ^ 2 / 2 + a ^ 4 / 24.
Proof.
  intros Ha. destruct (pre_cos_bound a 0) as [_ U]; [lra|lra|].
  unfold cos_approx, cos_term in U. cbn [sum_f_R0 Nat.mul Nat.add fact] in U.
  rewrite !INR_IZR_INZ in U. cbn in U. cbn. lra.
Qed.

Lemma cos_lower a : -2 <= a <= 2 -> 1 - a ^ 2 / 2 + a ^ 4 / 24 - a ^ 6 / 720 <= cos a.
Proof.
  intros Ha. destruct (pre_cos_bound a 1) as [U _]; [lra|lra|].
  unfold cos_approx, cos_term in U. cbn [sum_f_R0 Nat.mul Nat.add fact] in U.
  rewrite !INR_IZR_INZ in U. cbn in U. cbn. lra.
Qed.

Lemma pi_bounds : 25 / 8 < PI < 10 / 3.
Proof.
  pose proof PI2_3_2. pose proof PI_4. split.
  - destruct (Rlt_dec (25 / 8) PI) as [L|L]; [assumption|]. exfalso.
    assert (cos (25 / 16) <= 0) by (apply cos_le_0; lra).
    pose proof (cos_lower (25 / 16)). lra.
  - destruct (Rlt_dec PI (10 / 3)) as [L|L]; [assumption|]. exfalso.
    assert (0 <= cos (5 / 3)) by (apply cos_ge_0; lra).
    pose proof (cos_upper (5 / 3)). lra.
Qed.

Lemma sin_25 : sin 25 <> 0.
Proof.
  intros E. apply sin_eq_0_0 in E. destruct E as (k & E). pose proof pi_bounds.
  assert (7 < IZR k < 8) by (split; nra). destruct H0 as [A B].
  apply lt_IZR in A, B. lia.
Qed.

Lemma cos_25 : cos 25 <> 0.
Proof.
  intros E. apply cos_eq_0_0 in E. destruct E as (k & E). pose proof pi_bounds.
  assert (7 < IZR k < 8) by (split; nra). destruct H0 as [A B].
  apply lt_IZR in A, B. lia.
Qed.
