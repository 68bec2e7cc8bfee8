(** How well the fronts of UF6, UF8, UF9, UF10, EWA1 and EWA2 cover what can be attained. *)
From Coq Require Import Reals List Lra Lia Psatz Arith.
From Verif Require Import ProbModel ProbSpec ProbProofs ProbCurve ProbMore ProbZdt3.
Import ListNotations.
Local Open Scope R_scope.

(** ** UF6 *)

Lemma sin_third u : 0 <= u <= PI / 2 -> u / 3 <= sin u.
Proof.
  intros Hu. pose proof PI_4 as P4. pose proof PI_RGT_0. pose proof (sin_lower3 u). nra.
Qed.

Lemma pen6_nonneg t : 0 <= pen6 t.
Proof. unfold pen6. apply Rmax_l. Qed.

Lemma sin_period_nat u i : sin (u + 2 * INR i * PI) = sin u.
Proof. apply sin_period. Qed.

(** Between two segments the penalty outweighs the distance to the nearer one. *)
Lemma pen6_lower i e : 0 <= e <= 1 / 60 ->
  e <= pen6 (2 * INR i / 60 + e) \/ 1 / 60 - e <= pen6 (2 * INR i / 60 + e).
Proof.
  intros He. pose proof pi_close as P.
  assert (G : forall d, sin (2 * 30 * PI * (2 * INR i / 60 + e)) = sin (60 * PI * d) -> 0 <= d <= 1 / 120 ->
    d <= pen6 (2 * INR i / 60 + e)).
  { intros d E Hd. unfold pen6. rewrite E.
    pose proof (sin_third (60 * PI * d)) as S.
    assert (0 <= 60 * PI * d <= PI / 2) by nra.
    assert (60 * 3 * d <= 60 * PI * d) by nra.
    eapply Rle_trans; [|apply Rmax_r]. lra. }
  assert (E0 : sin (2 * 30 * PI * (2 * INR i / 60 + e)) = sin (60 * PI * e)).
  { replace (2 * 30 * PI * (2 * INR i / 60 + e)) with (60 * PI * e + 2 * INR i * PI) by field. apply sin_period. }
  destruct (Rle_dec e (1 / 120)) as [L|L].
  - left. apply G; [assumption|lra].
  - right. apply G; [|lra]. rewrite E0. replace (60 * PI * (1 / 60 - e)) with (PI - 60 * PI * e) by field.
    now rewrite sin_PI_x.
Qed.

Lemma uf6_in i k : (1 <= i <= 30)%nat -> (k < 4)%nat ->
  In ((2 * INR i - 1) / (2 * 30) + INR k * p_step) uf6_points.
Proof.
  intros Hi Hk. unfold uf6_points. apply in_flat_map. exists i. split; [apply in_seq; lia|].
  unfold arange4. destruct k as [|[|[|[|k]]]]; [left|right; left|right; right; left|right; right; right; left|lia];
    cbn [INR]; ring.
Qed.

Lemma even_odd n : exists i, (n = 2 * i \/ n = 2 * i + 1)%nat.
Proof. exists (Nat.div2 n). pose proof (Nat.div2_odd n). destruct (Nat.odd n); cbn in H; lia. Qed.

Lemma UF6_covers : front_covers (1 / 149) UF6.
Proof.
  apply (curve_covers _ _ _ _ _ UF6_curve eq_refl). intros s Hs.
  assert (ST : p_step = 59 / 9000) by (unfold p_step; field).
  assert (N : exists n e, (n <= 60)%nat /\ 0 <= e <= 1 / 60 /\ s = INR n / 60 + e /\ (n = 60%nat -> e = 0)).
  { destruct (points_above 61 s) as (u & Hu & L1 & L2); [lia|assumption|].
    apply in_map_iff in Hu. destruct Hu as (i & <- & Hi). apply in_seq in Hi.
    replace (INR (61 - 1)) with 60 in * by (cbn [Nat.sub]; rewrite INR_IZR_INZ; reflexivity).
    destruct (Req_dec (INR i / 60) s) as [E|E].
    - exists i, 0. split; [lia|]. split; [lra|]. split; [lra|reflexivity].
    - destruct i as [|i]; [cbn [INR] in *; lra|]. exists i, (s - INR i / 60). rewrite S_INR in *.
      split; [lia|]. split; [lra|]. split; [lra|]. lia. }
  destruct N as (n & e & Hn & He & -> & H60).
  pose proof (pen6_nonneg (INR n / 60 + e)) as PN.
  assert (K : forall p, In p (0 :: uf6_points) -> In [p; 1 - p] ([0; 1] :: map (fun x => [x; 1 - x]) uf6_points)).
  { intros p [<-|Hp]; [left; f_equal; f_equal; lra|right; apply in_map_iff; exists p; now split]. }
  destruct (even_odd n) as (i & [-> | ->]).
  - replace (INR (2 * i)) with (2 * INR i) in * by (rewrite mult_INR; cbn [INR]; ring).
    destruct (pen6_lower i e He) as [L|L].
    + (* the end of the segment on the left *)
      destruct i as [|i].
      * exists 0, (1 - 0). split; [apply K; now left|]. cbn [INR] in *. lra.
      * pose proof (uf6_in (S i) 2 ltac:(lia) ltac:(lia)) as I. eexists. eexists. split; [apply K; right; exact I|].
        rewrite ST. cbn [INR] in *. lra.
    + destruct (Nat.eq_dec i 30) as [->|Ni].
      * pose proof (uf6_in 30 2 ltac:(lia) ltac:(lia)) as I. eexists. eexists. split; [apply K; right; exact I|].
        rewrite ST. rewrite (H60 eq_refl) in *. rewrite INR30 in *. cbn [INR] in *. lra.
      * pose proof (uf6_in (S i) 0 ltac:(lia) ltac:(lia)) as I. eexists. eexists. split; [apply K; right; exact I|].
        rewrite S_INR. cbn [INR] in *. lra.
  - (* inside a segment *)
    assert (Hi : (1 <= S i <= 30)%nat) by lia.
    replace (INR (2 * i + 1)) with (2 * INR (S i) - 1) in * by (rewrite plus_INR, mult_INR, S_INR; cbn [INR]; ring).
    assert (C : exists k, (k < 4)%nat /\ INR k * p_step <= e <= INR k * p_step + p_step).
    { rewrite ST. destruct (Rle_dec e (59 / 9000)); [exists 0%nat; cbn [INR]; split; [lia|lra]|].
      destruct (Rle_dec e (2 * (59 / 9000))); [exists 1%nat; cbn [INR]; split; [lia|lra]|].
      exists 2%nat; cbn [INR]; split; [lia|lra]. }
    destruct C as (k & Hk & C). pose proof (uf6_in (S i) k Hi Hk) as I.
    eexists. eexists. split; [apply K; right; exact I|]. rewrite ST in *. lra.
Qed.

(** ** EWA1, EWA2 *)

Lemma sincos_above u v : 0 <= sin u * cos v + 1.
Proof. pose proof (SIN_bound u). pose proof (COS_bound v). nra. Qed.

Lemma EWA_covers P : P = EWA1 \/ P = EWA2 -> front_covers 0 P.
Proof.
  intros H. exists [[0; 0]]. split; [destruct H as [-> | ->]; reflexivity|].
  intros f (x & Hx & E). exists [0; 0]. split; [now left|].
  destruct H as [-> | ->].
  - destruct (adm_two EWA1 0 1 x eq_refl Hx) as (a & b & -> & _ & _).
    assert (E' : evaluates EWA1 [a; b] [sin (50 * a) * cos (50 * b) + 1; (a - 0.5) ^ 2 * (b - 0.5) ^ 2]) by reflexivity.
    rewrite (evaluates_unique _ _ _ _ E E'). apply Forall2_pair. pose proof (sincos_above (50 * a) (50 * b)).
    pose proof (pow2_ge_0 ((a - 0.5) * (b - 0.5))). split; [lra|]. rewrite <- Rpow_mult_distr. lra.
  - destruct (adm_two EWA2 0 1 x eq_refl Hx) as (a & b & -> & _ & _).
    assert (E' : evaluates EWA2 [a; b] [sin (50 * a) * cos (30 * b) + 1; sin (30 * a) * cos (50 * b) + 1]) by reflexivity.
    rewrite (evaluates_unique _ _ _ _ E E'). apply Forall2_pair.
    pose proof (sincos_above (50 * a) (30 * b)). pose proof (sincos_above (30 * a) (50 * b)). lra.
Qed.

(** ** UF9 *)

Lemma INR11 : INR (12 - 1) = 11.
Proof. cbn [Nat.sub]. rewrite INR_IZR_INZ. reflexivity. Qed.

Lemma points_below12 t : 0 <= t <= 1 -> exists s, In s (points 12) /\ t - 1 / 11 <= s <= t.
Proof.
  intros Ht. destruct (points_above 12 (1 - t)) as (u & Hu & L1 & L2); [lia|lra|]. rewrite INR11 in L2.
  exists (1 - u). split; [|lra]. apply in_map_iff in Hu. destruct Hu as (i & <- & Hi). apply in_seq in Hi.
  apply in_map_iff. exists (11 - i)%nat. split; [|apply in_seq; lia].
  rewrite minus_INR by lia. rewrite INR11. replace (INR 11) with 11 by (rewrite INR_IZR_INZ; reflexivity). field.
Qed.

Lemma UF9_covers : front_covers (1 / 11) UF9.
Proof.
  eexists. split; [reflexivity|]. intros f (x & Hx & E).
  destruct (adm3 UF9 _ eq_refl Hx) as (x0 & u & r & -> & H0 & H1 & L).
  destruct (UF9_eval x0 u r L) as (v1 & v2 & v3 & P1 & P2 & P3 & E').
  rewrite (evaluates_unique _ _ _ _ E E'). clear E E' Hx.
  assert (B0 : 0 <= uf9_bump x0) by apply Rmax_l.
  destruct (points_above 12 (1 - u)) as (z & Hz & Z1 & Z2); [lia|lra|]. rewrite INR11 in Z2.
  pose proof (points_in 12 z ltac:(lia) Hz) as Bz.
  (* a point of the list with first coordinate [q] *)
  assert (K : forall q c, In q (points 12) -> 0 <= c <= 1 ->
     (q <= 0.25 * (1 - z) \/ 0.75 * (1 - z) <= q) ->
     c * (1 - z) - 1 / 11 <= q <= c * (1 - z) + 1 / 11 ->
     q <= 0.5 * (uf9_bump x0 + 2 * x0) * u + 1 / 11 ->
     1 - q - z <= 0.5 * (uf9_bump x0 - 2 * x0 + 2) * u + 1 / 11 ->
     exists p, In p (map (fun xz => [fst xz; 1 - fst xz - snd xz; snd xz])
       (filter (fun xz => if Rle_dec (fst xz) (0.25 * (1 - snd xz)) then true
                          else if Rle_dec (0.75 * (1 - snd xz)) (fst xz) then true else false)
          grid12)) /\
     Forall2 (fun a b => a <= b + 1 / 11) p
       [0.5 * (uf9_bump x0 + 2 * x0) * u + v1; 0.5 * (uf9_bump x0 - 2 * x0 + 2) * u + v2; 1 - u + v3]).
  { intros q c Hq Hc D _ A B. exists [q; 1 - q - z; z]. split.
    - apply in_map_iff. exists (q, z). split; [reflexivity|]. apply filter_In. split; [now apply in_grid12|].
      cbn [fst snd]. destruct (Rle_dec q (0.25 * (1 - z))); [reflexivity|].
      destruct (Rle_dec (0.75 * (1 - z)) q); [reflexivity|]. destruct D; contradiction.
    - apply Forall2_triple. lra. }
  assert (W : 0 <= 1 - z <= u) by lra. set (w := 1 - z) in *.
  assert (low : forall c, 0 <= c <= 0.25 -> c <= x0 + uf9_bump x0 / 2 -> 1 - c <= 1 - x0 + uf9_bump x0 / 2 -> exists p, In p (map (fun xz => [fst xz; 1 - fst xz - snd xz; snd xz])
       (filter (fun xz => if Rle_dec (fst xz) (0.25 * (1 - snd xz)) then true
                          else if Rle_dec (0.75 * (1 - snd xz)) (fst xz) then true else false)
          grid12)) /\
     Forall2 (fun a b => a <= b + 1 / 11) p
       [0.5 * (uf9_bump x0 + 2 * x0) * u + v1; 0.5 * (uf9_bump x0 - 2 * x0 + 2) * u + v2; 1 - u + v3]).
  { intros c Hc C1 C2. destruct (points_below12 (c * w)) as (q & Hq & Q); [nra|].
    assert (c * w <= (x0 + uf9_bump x0 / 2) * u) by nra.
    assert ((1 - c) * w <= (1 - x0 + uf9_bump x0 / 2) * u) by nra.
    apply (K q c Hq); unfold w in *; try lra; left; nra. }
  assert (high : forall c, 0.75 <= c <= 1 -> c <= x0 + uf9_bump x0 / 2 -> 1 - c <= 1 - x0 + uf9_bump x0 / 2 -> exists p, In p (map (fun xz => [fst xz; 1 - fst xz - snd xz; snd xz])
       (filter (fun xz => if Rle_dec (fst xz) (0.25 * (1 - snd xz)) then true
                          else if Rle_dec (0.75 * (1 - snd xz)) (fst xz) then true else false)
          grid12)) /\
     Forall2 (fun a b => a <= b + 1 / 11) p
       [0.5 * (uf9_bump x0 + 2 * x0) * u + v1; 0.5 * (uf9_bump x0 - 2 * x0 + 2) * u + v2; 1 - u + v3]).
  { intros c Hc C1 C2. destruct (points_above 12 (c * w)) as (q & Hq & Q); [lia|nra|]. rewrite INR11 in Q.
    assert (c * w <= (x0 + uf9_bump x0 / 2) * u) by nra.
    assert ((1 - c) * w <= (1 - x0 + uf9_bump x0 / 2) * u) by nra.
    apply (K q c Hq); unfold w in *; try lra; right; nra. }
  clear K.
  destruct (Rle_dec x0 0.25); [apply (low x0); lra|]. destruct (Rle_dec 0.75 x0); [apply (high x0); lra|].
  assert (BL : (1 + 0.1) * (1 - 4 * (2 * x0 - 1) ^ 2) <= uf9_bump x0) by apply Rmax_r.
  destruct (Rle_dec x0 0.5).
  - apply (low 0.25); [lra|lra|]. nra.
  - apply (high 0.75); [lra|nra|lra].
Qed.

(** ** UF8, UF10 *)

Lemma rpow_third u : 0 <= u -> rpow u (1 / 3) ^ 3 = u.
Proof.
  intros Hu. unfold rpow. destruct (Req_EM_T u 0) as [->|N]; [ring|].
  rewrite <- Rpower_pow by apply exp_pos. rewrite Rpower_mult.
  replace (1 / 3 * INR 3) with 1 by (cbn [INR]; field). apply Rpower_1. lra.
Qed.

Lemma sphere_not_covered b : base3 b -> ~ front_covers 0.29 (sphere_problem b).
Proof.
  intros B (fr & E & C). cbn [p_front sphere_problem] in E. rewrite sphere_front_eq in E. apply some_inj in E. subst fr.
  assert (Q : sqrt (1 / 2) * sqrt (1 / 2) = 1 / 2) by (apply sqrt_sqrt; lra).
  pose proof (sqrt_between (1 / 2) 0.7 0.7072 ltac:(lra) ltac:(lra) ltac:(lra)) as S.
  destruct (C [sqrt (1 / 2); sqrt (1 / 2); 0]) as (p & Hp & F).
  { apply sphere_point; [assumption|lra|lra|lra|]. cbn. lra. }
  apply in_map_iff in Hp. destruct Hp as ([x y] & <- & Hp). apply filter_In in Hp. cbn [fst snd] in *.
  destruct Hp as [Hp D]. destruct (Rle_dec (x ^ 2 + y ^ 2) 1) as [L|]; [|discriminate]. clear D.
  apply Forall2_triple in F. destruct F as (F1 & F2 & F3).
  unfold grid12 in Hp. apply in_prod_iff in Hp. destruct Hp as [Hx Hy].
  apply in_map_iff in Hx, Hy. destruct Hx as (i & <- & Hi). destruct Hy as (j & <- & Hj). apply in_seq in Hi, Hj.
  rewrite INR11 in *.
  assert (Z : 1 - (INR i / 11) ^ 2 - (INR j / 11) ^ 2 <= 0.0244).
  { set (q := - (INR i / 11) ^ 2 - (INR j / 11) ^ 2 + 1) in *.
    assert (0 <= q) by (unfold q; lra). pose proof (rpow_third q H) as T. pose proof (rpow_nonneg q (1 / 3)) as N.
    assert (rpow q (1 / 3) ^ 3 <= 0.29 ^ 3) by (apply pow_incr; lra). unfold q in *. lra. }
  assert (T : INR (i * i + j * j) = 121 * ((INR i / 11) ^ 2 + (INR j / 11) ^ 2)).
  { rewrite plus_INR, !mult_INR. field. }
  assert (T1 : (118 <= i * i + j * j)%nat).
  { apply INR_le. replace (INR 118) with 118 by (rewrite INR_IZR_INZ; reflexivity). lra. }
  assert (T2 : (i * i + j * j <= 121)%nat).
  { apply INR_le. replace (INR 121) with 121 by (rewrite INR_IZR_INZ; reflexivity). lra. }
  assert (I11 : INR 11 = 11) by (rewrite INR_IZR_INZ; reflexivity).
  assert (R : (i = 11 \/ j = 11)%nat).
  { clear - Hi Hj T1 T2.
    do 12 (destruct i as [|i]; [do 12 (destruct j as [|j]; [cbn in T1, T2; lia|]); lia|]). lia. }
  destruct R as [-> | ->]; rewrite I11 in *; lra.
Qed.
