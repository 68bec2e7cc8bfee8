(** How well the front of ZDT6 covers what can be attained.
    The first objective and its square are Lipschitz along the front; the bound of the derivative comes
    from two polynomial inequalities, which are checked on a hundred intervals. *)
From Coq Require Import Reals List Lra Lia Psatz Arith ZArith.
From Verif Require Import ProbModel ProbSpec ProbProofs ProbCurve ProbMore ProbZdt3.
Import ListNotations.
Local Open Scope R_scope.

Lemma hundredths u : 0 <= u <= 1 -> exists k, (k < 100)%nat /\ INR k / 100 <= u <= (INR k + 1) / 100.
Proof.
  intros Hu. destruct (points_above 101 u) as (s & Hs & L); [lia|assumption|].
  apply in_map_iff in Hs. destruct Hs as (i & <- & Hi). apply in_seq in Hi.
  replace (INR (101 - 1)) with 100 in * by (cbn [Nat.sub]; rewrite INR_IZR_INZ; reflexivity).
  destruct i as [|i].
  - exists 0%nat. split; [lia|]. cbn [INR] in *. lra.
  - exists i. rewrite S_INR in *. split; [lia|]. lra.
Qed.

Lemma checked (f : Z -> Z -> bool) k : forallb (fun i => f (Z.of_nat i) (Z.of_nat i + 1)%Z) (seq 0 100) = true ->
  (k < 100)%nat -> f (Z.of_nat k) (Z.of_nat k + 1)%Z = true.
Proof. intros H Hk. rewrite forallb_forall in H. apply (H k), in_seq. lia. Qed.

Lemma poly1 u : 0 <= u <= 1 -> u ^ 5 * (1 - u) <= 0.0784.
Proof.
  intros Hu. destruct (hundredths u Hu) as (k & Hk & La & Lb).
  assert (C : (((Z.of_nat k + 1) ^ 5 * (100 - Z.of_nat k)) <= 78400000000)%Z).
  { apply Z.leb_le. apply (checked (fun a b => (b ^ 5 * (100 - a) <=? 78400000000)%Z)); [vm_compute; reflexivity|exact Hk]. }
  apply IZR_le in C. rewrite mult_IZR, minus_IZR in C. rewrite <- pow_IZR with (n := 5%nat) in C. rewrite plus_IZR, <- INR_IZR_INZ in C.
  set (a := INR k) in *. pose proof (pos_INR k) as Pa. fold a in Pa.
  assert (A1 : u ^ 5 <= ((a + 1) / 100) ^ 5) by (apply pow_incr; lra).
  assert (A2 : 0 <= u ^ 5) by (apply pow_le; lra).
  assert (A3 : u ^ 5 * (1 - u) <= ((a + 1) / 100) ^ 5 * (1 - a / 100)) by (apply Rmult_le_compat; lra).
  replace (((a + 1) / 100) ^ 5 * (1 - a / 100)) with ((a + 1) ^ 5 * (100 - a) / 10 ^ 12) in A3 by field.
  assert ((a + 1) ^ 5 * (100 - a) / 10 ^ 12 <= 78400000000 / 10 ^ 12) by (unfold Rdiv; apply Rmult_le_compat_r; [lra|exact C]).
  lra.
Qed.

Lemma poly2 u : 0 <= u <= 1 -> (1 - u ^ 3) ^ 2 * (u ^ 5 * (1 - u)) <= 0.02408.
Proof.
  intros Hu. destruct (hundredths u Hu) as (k & Hk & La & Lb).
  assert (C : ((1000000 - Z.of_nat k ^ 3) ^ 2 * ((Z.of_nat k + 1) ^ 5 * (100 - Z.of_nat k)) <= 24080000000000000000000)%Z).
  { apply Z.leb_le. apply (checked (fun a b => ((1000000 - a ^ 3) ^ 2 * (b ^ 5 * (100 - a)) <=? 24080000000000000000000)%Z)); [vm_compute; reflexivity|exact Hk]. }
  apply IZR_le in C. rewrite !mult_IZR, minus_IZR in C. rewrite <- pow_IZR with (n := 5%nat) in C. rewrite <- pow_IZR with (n := 2%nat) in C.
  rewrite minus_IZR in C. rewrite <- pow_IZR with (n := 3%nat) in C. rewrite plus_IZR, <- INR_IZR_INZ in C.
  set (a := INR k) in *. pose proof (pos_INR k) as Pa. fold a in Pa.
  assert (A1 : u ^ 5 <= ((a + 1) / 100) ^ 5) by (apply pow_incr; lra).
  assert (A2 : 0 <= u ^ 5) by (apply pow_le; lra).
  assert (A3 : u ^ 5 * (1 - u) <= ((a + 1) / 100) ^ 5 * (1 - a / 100)) by (apply Rmult_le_compat; lra).
  assert (A4 : (a / 100) ^ 3 <= u ^ 3) by (apply pow_incr; lra).
  assert (A5 : u ^ 3 <= 1 ^ 3) by (apply pow_incr; lra). rewrite pow1 in A5.
  assert (A6 : (1 - u ^ 3) ^ 2 <= (1 - (a / 100) ^ 3) ^ 2) by (apply pow_incr; lra).
  assert (A7 : 0 <= (1 - u ^ 3) ^ 2) by (apply pow_le; lra).
  assert (A8 : 0 <= u ^ 5 * (1 - u)) by (apply Rmult_le_pos; lra).
  assert (A9 : (1 - u ^ 3) ^ 2 * (u ^ 5 * (1 - u)) <= (1 - (a / 100) ^ 3) ^ 2 * (((a + 1) / 100) ^ 5 * (1 - a / 100))) by (apply Rmult_le_compat; lra).
  replace ((1 - (a / 100) ^ 3) ^ 2 * (((a + 1) / 100) ^ 5 * (1 - a / 100))) with ((1000000 - a ^ 3) ^ 2 * ((a + 1) ^ 5 * (100 - a)) / 10 ^ 24) in A9 by field.
  assert ((1000000 - a ^ 3) ^ 2 * ((a + 1) ^ 5 * (100 - a)) / 10 ^ 24 <= 24080000000000000000000 / 10 ^ 24) by (unfold Rdiv; apply Rmult_le_compat_r; [lra|exact C]).
  lra.
Qed.

(** The derivative of the first objective. *)
Definition df1e (x : R) : R :=
  4 * exp (-4 * x) * sin (6 * PI * x) ^ 6 - exp (-4 * x) * (36 * PI * (sin (6 * PI * x) ^ 5 * cos (6 * PI * x))).

Lemma derive_lin c x : derivable_pt_lim (fun y => c * y) x c.
Proof.
  pose proof (derivable_pt_lim_scal id c x 1 (derivable_pt_lim_id x)) as H. rewrite Rmult_1_r in H. exact H.
Qed.

Lemma df1e_ok x : derivable_pt_lim f1e x (df1e x).
Proof.
  assert (E : derivable_pt_lim (fun y => exp (-4 * y)) x (exp (-4 * x) * (-4))).
  { apply (derivable_pt_lim_comp (fun y => -4 * y) exp x (-4)); [apply derive_lin | apply derivable_pt_lim_exp]. }
  assert (S : derivable_pt_lim (fun y => sin (6 * PI * y)) x (cos (6 * PI * x) * (6 * PI))).
  { apply (derivable_pt_lim_comp (fun y => 6 * PI * y) sin x (6 * PI)); [apply derive_lin | apply derivable_pt_lim_sin]. }
  assert (S6 : derivable_pt_lim (fun y => sin (6 * PI * y) ^ 6) x (INR 6 * sin (6 * PI * x) ^ 5 * (cos (6 * PI * x) * (6 * PI)))).
  { apply (derivable_pt_lim_comp (fun y => sin (6 * PI * y)) (fun z => z ^ 6) x); [exact S | apply (derivable_pt_lim_pow _ 6)]. }
  pose proof (derivable_pt_lim_mult _ _ _ _ _ E S6) as M.
  pose proof (derivable_pt_lim_minus (fct_cte 1) _ x 0 _ (derivable_pt_lim_const 1 x) M) as D.
  unfold df1e. replace (INR 6) with 6 in D by (rewrite INR_IZR_INZ; reflexivity).
  match type of D with derivable_pt_lim _ _ ?l => replace (4 * exp (-4 * x) * sin (6 * PI * x) ^ 6 - exp (-4 * x) * (36 * PI * (sin (6 * PI * x) ^ 5 * cos (6 * PI * x)))) with l by ring end.
  exact D.
Qed.

Lemma abs_le_of_sqr w b : 0 <= b -> w ^ 2 <= b ^ 2 -> Rabs w <= b.
Proof. intros Hb H. apply Rabs_le. split; nra. Qed.

Lemma df1e_bounds x : 0 <= x -> Rabs (df1e x) <= 36 /\ f1e x * Rabs (df1e x) <= 18.6.
Proof.
  intros Hx. pose proof (f1e_nonneg x Hx) as F0. unfold f1e in F0 |- *. unfold df1e.
  pose proof pi_close as PC. pose proof (exp_pos (-4 * x)) as E0.
  assert (E1 : exp (-4 * x) <= 1).
  { rewrite <- exp_0. destruct (Req_dec x 0) as [->|N]; [right; f_equal; ring | left; apply exp_increasing; lra]. }
  pose proof (sin2_cos2 (6 * PI * x)) as SC. unfold Rsqr in SC.
  set (E := exp (-4 * x)) in *. set (s := sin (6 * PI * x)) in *. set (c := cos (6 * PI * x)) in *.
  assert (U : 0 <= s ^ 2 <= 1) by nra.
  assert (W2 : (s ^ 5 * c) ^ 2 = (s ^ 2) ^ 5 * (1 - s ^ 2)).
  { replace (1 - s ^ 2) with (c ^ 2) by nra. ring. }
  assert (V : s ^ 6 = (s ^ 2) ^ 3) by ring.
  pose proof (poly1 _ U) as P1. pose proof (poly2 _ U) as P2. rewrite <- W2 in P1, P2. rewrite <- V in P2.
  assert (V1 : 0 <= s ^ 6 <= 1).
  { rewrite V. split; [apply pow_le; lra|]. rewrite <- (pow1 3). apply pow_incr. lra. }
  assert (W : Rabs (s ^ 5 * c) <= 0.28) by (apply abs_le_of_sqr; lra).
  assert (W' : (1 - s ^ 6) * Rabs (s ^ 5 * c) <= 0.1552).
  { rewrite <- (Rabs_right (1 - s ^ 6)) by lra. rewrite <- Rabs_mult. apply abs_le_of_sqr; [lra|].
    rewrite Rpow_mult_distr. lra. }
  set (w := s ^ 5 * c) in *. set (v := s ^ 6) in *.
  assert (D : Rabs (4 * E * v - E * (36 * PI * w)) <= E * (4 * v + 113.4 * Rabs w)).
  { replace (4 * E * v - E * (36 * PI * w)) with (E * (4 * v - 36 * PI * w)) by ring. rewrite Rabs_mult, (Rabs_right E) by lra.
    apply Rmult_le_compat_l; [lra|]. unfold Rminus. eapply Rle_trans; [apply Rabs_triang|].
    rewrite Rabs_Ropp, Rabs_right by lra. rewrite Rabs_mult, (Rabs_right (36 * PI)) by lra.
    pose proof (Rabs_pos w). nra. }
  pose proof (Rabs_pos w) as Pw. set (aw := Rabs w) in *.
  assert (T : 0 <= 4 * v + 113.4 * aw) by lra.
  split; [eapply Rle_trans; [exact D|]; nra|].
  assert (G : (1 - E * v) * (E * (4 * v + 113.4 * aw)) <= 18.6).
  { destruct (Rle_dec v (1 / 2)) as [L|L].
    - assert (K : E * (1 - E * v) <= 1 - v).
      { assert (v * (1 + E) <= 1) by nra. assert (0 <= (1 - E) * (1 - v * (1 + E))) by (apply Rmult_le_pos; lra). nra. }
      replace ((1 - E * v) * (E * (4 * v + 113.4 * aw))) with (E * (1 - E * v) * (4 * v + 113.4 * aw)) by ring.
      eapply Rle_trans; [apply Rmult_le_compat_r; [exact T | exact K]|]. nra.
    - assert (K : E * (1 - E * v) <= 1 / 2).
      { assert (E * E * (1 / 2) <= E * E * v) by (apply Rmult_le_compat_l; nra). nra. }
      replace ((1 - E * v) * (E * (4 * v + 113.4 * aw))) with (E * (1 - E * v) * (4 * v + 113.4 * aw)) by ring.
      eapply Rle_trans; [apply Rmult_le_compat_r; [exact T | exact K]|]. lra. }
  eapply Rle_trans; [|exact G]. apply Rmult_le_compat_l; [exact F0 | exact D].
Qed.

Lemma mvt_abs f f' K a b : (forall x, 0 <= x -> derivable_pt_lim f x (f' x)) -> (forall x, 0 <= x -> Rabs (f' x) <= K) ->
  0 <= a -> 0 <= b -> Rabs (f b - f a) <= K * Rabs (b - a).
Proof.
  intros D B.
  assert (L : forall a b, 0 <= a -> a < b -> Rabs (f b - f a) <= K * Rabs (b - a)).
  { intros u v Hu Huv. destruct (MVT_cor2 f f' u v Huv) as (c & E & Hc); [intros c Hc; apply D; lra|].
    rewrite E, Rabs_mult. apply Rmult_le_compat_r; [apply Rabs_pos | apply B; lra]. }
  intros Ha Hb. destruct (Rtotal_order a b) as [H|[->|H]].
  - apply L; assumption.
  - rewrite !Rminus_eq_0, Rabs_R0. lra.
  - rewrite (Rabs_minus_sym (f b)), (Rabs_minus_sym b). apply L; assumption.
Qed.

Lemma near150 t : 0 <= t <= 1 -> exists s, In s (points 150) /\ Rabs (s - t) <= 1 / 298.
Proof.
  intros Ht. destruct (points_above 150 t) as (s & Hs & L); [lia|assumption|].
  replace (INR (150 - 1)) with 149 in L by (cbn [Nat.sub]; rewrite INR_IZR_INZ; reflexivity).
  destruct (Rle_dec (s - t) (1 / 298)) as [N|N].
  - exists s. split; [assumption|]. rewrite Rabs_right; lra.
  - pose proof Hs as Hs'. apply in_map_iff in Hs. destruct Hs as (i & <- & Hi). apply in_seq in Hi.
    replace (INR (150 - 1)) with 149 in * by (cbn [Nat.sub]; rewrite INR_IZR_INZ; reflexivity).
    destruct i as [|i]; [cbn [INR] in *; lra|]. exists (INR i / 149). split.
    + apply in_map_iff. exists i. split; [|apply in_seq; lia].
      replace (INR (150 - 1)) with 149 by (cbn [Nat.sub]; rewrite INR_IZR_INZ; reflexivity). reflexivity.
    + rewrite S_INR in *. rewrite Rabs_left1; lra.
Qed.

Lemma points_unit n s : In s (points n) -> 0 <= s.
Proof.
  intros H. apply in_map_iff in H. destruct H as (i & <- & _). destruct (n - 1)%nat as [|m].
  - cbn [INR]. unfold Rdiv. rewrite Rinv_0. lra.
  - apply Rmult_le_pos; [apply pos_INR | left; apply Rinv_0_lt_compat, lt_0_INR; lia].
Qed.

Lemma ZDT6_covers : front_covers (1 / 8) ZDT6.
Proof.
  apply (curve_covers _ _ _ _ _ ZDT6_curve eq_refl). intros t Ht.
  destruct (near150 t Ht) as (s & Hs & N). pose proof (points_unit _ _ Hs) as S0.
  exists (f1e s), (1 - f1e s * f1e s). split; [apply in_map_iff; exists s; auto|].
  pose proof (mvt_abs f1e df1e 36 t s (fun x _ => df1e_ok x) (fun x Hx => proj1 (df1e_bounds x Hx)) (proj1 Ht) S0) as L1.
  assert (L2 : Rabs (f1e s * f1e s - f1e t * f1e t) <= 37.2 * Rabs (s - t)).
  { apply (mvt_abs (fun x => f1e x * f1e x) (fun x => df1e x * f1e x + f1e x * df1e x)); [| |lra|exact S0].
    - intros x _. apply (derivable_pt_lim_mult f1e f1e); apply df1e_ok.
    - intros x Hx. replace (df1e x * f1e x + f1e x * df1e x) with (2 * (f1e x * df1e x)) by ring.
      rewrite !Rabs_mult, (Rabs_right 2), (Rabs_right (f1e x)) by (try apply Rle_ge, f1e_nonneg; lra).
      pose proof (proj2 (df1e_bounds x Hx)). lra. }
  pose proof (Rle_abs (f1e s - f1e t)).
  pose proof (Rle_abs (- (f1e s * f1e s - f1e t * f1e t))) as A. rewrite Rabs_Ropp in A. split; lra.
Qed.
