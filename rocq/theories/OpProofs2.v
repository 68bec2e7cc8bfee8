From Coq Require Import Reals List Lra Lia.
From Verif Require Import OpModel OpSpec OpProofs.
Import ListNotations.
Local Open Scope R_scope.

Lemma put_length : forall v l i, length (put i v l) = length l.
Proof. intros v. induction l as [|a l IH]; intros [|i]; cbn; [reflexivity..|]. rewrite IH. reflexivity. Qed.

Lemma put_same : forall v l i, (i < length l)%nat -> nth_error (put i v l) i = Some v.
Proof. intros v. induction l as [|a l IH]; intros [|i] H; cbn in *; [lia|lia|reflexivity|]. apply IH. lia. Qed.

Lemma put_other : forall v l i k, i <> k -> nth_error (put i v l) k = nth_error l k.
Proof. intros v. induction l as [|a l IH]; intros [|i] [|k] H; cbn; try reflexivity; try lia. apply IH. lia. Qed.

Lemma clamp_id : forall lb ub y, lb <= y <= ub -> rclamp lb ub y = y.
Proof. intros lb ub y H. unfold rclamp. rewrite Rmax_right by lra. apply Rmin_right. lra. Qed.

Lemma in_rbox_nth : forall dims v, in_rbox dims v ->
  length v = length dims /\
  forall i d, nth_error dims i = Some d -> exists x, nth_error v i = Some x /\ fst d <= x <= snd d.
Proof.
  intros dims v H. induction H as [|d x dims v H1 H2 [L IH]].
  - split; [reflexivity|]. intros [|i] d H; discriminate.
  - split; [cbn; lia|]. intros [|i] d' Hd; cbn in Hd |- *.
    + injection Hd as <-. exists x. split; [reflexivity|exact H1].
    + apply IH. exact Hd.
Qed.

Lemma nth_in_rbox : forall dims v, length v = length dims ->
  (forall i d, nth_error dims i = Some d -> exists x, nth_error v i = Some x /\ fst d <= x <= snd d) ->
  in_rbox dims v.
Proof.
  induction dims as [|d dims IH]; intros [|x v] L H; try discriminate; [constructor|].
  constructor.
  - destruct (H O d eq_refl) as (x' & E & B). cbn in E. injection E as <-. exact B.
  - apply IH; [cbn in L; lia|]. intros i d' Hd. exact (H (S i) d' Hd).
Qed.

Section Mutation.
  Variables eps eta rate : R.
  Variables sel rnd : nat -> R.
  Hypothesis He : 0 < eps.
  Hypothesis Ht : 0 <= eta.
  Hypothesis Hr : forall i, unit_draw (rnd i).

  Lemma rmutate_loop_ok : forall dims xs i new,
    length new = length xs ->
    (forall j d, nth_error dims j = Some d -> exists x, nth_error xs (i + j) = Some x /\ fst d <= x <= snd d) ->
    exists out, rmutate_loop eps rate eta sel rnd xs i dims new = Some out /\
      length out = length new /\
      (forall k, (k < i)%nat -> nth_error out k = nth_error new k) /\
      forall j d x, nth_error dims j = Some d -> nth_error xs (i + j) = Some x ->
        (rate < sel (i + j)%nat -> nth_error out (i + j) = nth_error new (i + j)) /\
        (sel (i + j)%nat <= rate -> exists y, perturbed eps eta (fst d) (snd d) x (rnd (i + j)%nat) = Some y /\
                                        fst d <= y <= snd d /\ nth_error out (i + j) = Some y).
  Proof.
    induction dims as [|[lb ub] dims IH]; intros xs i new L H; cbn [rmutate_loop].
    - exists new. split; [reflexivity|]. split; [reflexivity|]. split; [reflexivity|].
      intros [|j] d x E; discriminate.
    - assert (T : forall j d, nth_error dims j = Some d -> exists x, nth_error xs (S i + j) = Some x /\ fst d <= x <= snd d).
      { intros j d E. replace (S i + j)%nat with (i + S j)%nat by lia. apply H. exact E. }
      destruct (H O (lb, ub) eq_refl) as (x0 & E0 & B0). rewrite Nat.add_0_r in E0. cbn in B0.
      destruct (Rlt_dec rate (sel i)) as [S0|S0].
      + destruct (IH xs (S i) new L T) as (out & E & L' & K & J). exists out. split; [exact E|]. split; [exact L'|].
        split; [intros k Hk; apply K; lia|].
        intros [|j] d x Ed Ex.
        * rewrite Nat.add_0_r in Ex |- *. split; [intros _; apply K; lia|]. intros; lra.
        * replace (i + S j)%nat with (S i + j)%nat in Ex |- * by lia. exact (J j d x Ed Ex).
      + rewrite E0.
        destruct (perturbed_in_bounds eps eta lb ub x0 (rnd i) He Ht B0 (Hr i)) as (y & Ey & By & _).
        rewrite Ey. rewrite clamp_id by exact By.
        destruct (IH xs (S i) (put i y new)) as (out & E & L' & K & J); [rewrite put_length; exact L|exact T|].
        exists out. split; [exact E|]. rewrite put_length in L'. split; [exact L'|].
        assert (Li : (i < length new)%nat). { rewrite L. apply nth_error_Some. congruence. }
        split; [intros k Hk; rewrite K by lia; apply put_other; lia|].
        intros [|j] d x Ed Ex.
        * rewrite Nat.add_0_r in Ex |- *. cbn in Ed. injection Ed as <-. cbn. split; [intros; lra|].
          intros _. assert (x0 = x) by congruence. subst x0. exists y. split; [exact Ey|]. split; [exact By|].
          rewrite K by lia. apply put_same. exact Li.
        * replace (i + S j)%nat with (S i + j)%nat in Ex |- * by lia. destruct (J j d x Ed Ex) as [J1 J2].
          split; [|exact J2]. intros Hs. rewrite J1 by exact Hs. apply put_other. lia.
  Qed.

  Lemma rmutate_ok : forall dims xs, in_rbox dims xs ->
    exists ys, rmutate eps xs dims rate eta sel rnd = Some ys /\ in_rbox dims ys /\
      forall i d x, nth_error dims i = Some d -> nth_error xs i = Some x ->
        exists y, nth_error ys i = Some y /\
          (rate < sel i -> y = x) /\
          (sel i <= rate -> perturbed eps eta (fst d) (snd d) x (rnd i) = Some y).
  Proof.
    intros dims xs B. destruct (in_rbox_nth _ _ B) as [L N].
    destruct (rmutate_loop_ok dims xs 0 xs eq_refl) as (out & E & L' & _ & J); [exact N|].
    exists out. split; [exact E|].
    assert (G : forall i d x, nth_error dims i = Some d -> nth_error xs i = Some x ->
        exists y, nth_error out i = Some y /\ (rate < sel i -> y = x) /\
          (sel i <= rate -> perturbed eps eta (fst d) (snd d) x (rnd i) = Some y) /\
          (fst d <= x <= snd d -> fst d <= y <= snd d)).
    { intros i d x Ed Ex. destruct (J i d x Ed Ex) as [J1 J2]. cbn [Nat.add] in J1, J2.
      destruct (Rlt_dec rate (sel i)) as [S0|S0].
      - exists x. rewrite J1 by exact S0. split; [exact Ex|]. split; [reflexivity|]. split; [intros; lra|auto].
      - destruct J2 as (y & E1 & E2 & E3); [lra|]. exists y. split; [exact E3|]. split; [intros; lra|]. split; [auto|auto]. }
    split.
    - apply nth_in_rbox; [congruence|]. intros i d Ed. destruct (N i d Ed) as (x & Ex & Bx).
      destruct (G i d x Ed Ex) as (y & E1 & _ & _ & E2). exists y. split; [exact E1|exact (E2 Bx)].
    - intros i d x Ed Ex. destruct (G i d x Ed Ex) as (y & E1 & E2 & E3 & _). exists y. auto.
  Qed.
End Mutation.

(** ---- simulated binary crossover ---- *)
Lemma spread : forall eta beta rand, 0 <= eta -> 1 <= beta -> unit_draw rand ->
  exists q, get_beta_q rand (2 - Rpower beta (- (eta + 1))) eta = Some q /\ 0 <= q <= beta /\
    (rand <= 1 / 2 -> q <= 1) /\
    (rand * (2 - Rpower beta (- (eta + 1))) <= 1 -> q = pw (rand * (2 - Rpower beta (- (eta + 1)))) (1 / (eta + 1))) /\
    (1 < rand * (2 - Rpower beta (- (eta + 1))) ->
       1 <= q /\ q = Rpower (1 / (2 - rand * (2 - Rpower beta (- (eta + 1))))) (1 / (eta + 1))).
Proof.
  intros eta beta rand Ht Hb Hr. red in Hr.
  set (p := Rpower beta (- (eta + 1))).
  assert (P0 : 0 < p) by apply Rpower_gt0.
  assert (PB : p * Rpower beta (eta + 1) = 1) by (apply Rpower_neg; lra).
  assert (B1 : 1 <= Rpower beta (eta + 1)).
  { pose proof (Rle_Rpower_l 1 beta (eta + 1)) as K. rewrite <- (pw_pos 1), pw_one in K by lra. apply K; lra. }
  assert (P1 : p <= 1) by nra.
  assert (N : 0 < 1 / (eta + 1)) by (apply Rdiv_lt_0_compat; lra).
  unfold get_beta_q. rewrite !py_div_ok by lra.
  assert (T : rand <= 1 / (2 - p) <-> rand * (2 - p) <= 1).
  { split; intros H.
    - apply Rmult_le_compat_r with (r := 2 - p) in H; [|lra]. replace (1 / (2 - p) * (2 - p)) with 1 in H by (field; lra). lra.
    - apply Rmult_le_reg_r with (2 - p); [lra|]. replace (1 / (2 - p) * (2 - p)) with 1 by (field; lra). lra. }
  destruct (Rle_dec rand (1 / (2 - p))) as [H|H].
  - apply T in H. rewrite py_pow_pw by nra. eexists. split; [reflexivity|].
    assert (Q : 0 <= pw (rand * (2 - p)) (1 / (eta + 1)) <= 1).
    { split; [apply pw_ge0|apply pw_le1; nra]. }
    split; [lra|]. split; [lra|]. split; [reflexivity|]. intros; lra.
  - assert (H' : 1 < rand * (2 - p)).
    { destruct (Rle_dec (rand * (2 - p)) 1) as [G|G]; [apply T in G; contradiction|lra]. }
    assert (D0 : p <= 2 - rand * (2 - p) < 1) by nra.
    assert (DP : 0 < 1 / (2 - rand * (2 - p))) by (apply Rdiv_lt_0_compat; lra).
    rewrite py_div_ok by lra. rewrite py_pow_pos by exact DP.
    eexists. split; [reflexivity|].
    assert (I1 : 1 <= 1 / (2 - rand * (2 - p))).
    { apply Rmult_le_reg_r with (2 - rand * (2 - p)); [lra|]. unfold Rdiv. rewrite Rmult_assoc, Rinv_l by lra. lra. }
    assert (I2 : 1 / (2 - rand * (2 - p)) <= Rpower beta (eta + 1)).
    { apply Rmult_le_reg_r with (2 - rand * (2 - p)); [lra|]. unfold Rdiv. rewrite Rmult_assoc, Rinv_l by lra. nra. }
    assert (J1 : 1 <= Rpower (1 / (2 - rand * (2 - p))) (1 / (eta + 1))).
    { pose proof (Rle_Rpower_l 1 (1 / (2 - rand * (2 - p))) (1 / (eta + 1))) as K.
      rewrite <- (pw_pos 1), pw_one in K by lra. apply K; lra. }
    assert (J2 : Rpower (1 / (2 - rand * (2 - p))) (1 / (eta + 1)) <= beta).
    { pose proof (pw_mono (1 / (2 - rand * (2 - p))) (Rpower beta (eta + 1)) (1 / (eta + 1))) as K.
      rewrite <- (pw_pos beta), pw_inv in K by lra. rewrite (pw_pos (1 / _)) in K by exact DP.
      rewrite (pw_pos beta) in K by lra. apply K; lra. }
    split; [lra|]. split; [nra|]. split; [intros; lra|]. intros _. split; [exact J1|reflexivity].
Qed.

Lemma spread_monotone : forall eta beta r r' q q', 0 <= eta -> 1 <= beta -> unit_draw r -> unit_draw r' -> r <= r' ->
  get_beta_q r (2 - Rpower beta (- (eta + 1))) eta = Some q ->
  get_beta_q r' (2 - Rpower beta (- (eta + 1))) eta = Some q' -> q <= q'.
Proof.
  intros eta beta r r' q q' Ht Hb Hr Hr' L Q Q'.
  destruct (spread eta beta r Ht Hb Hr) as (u & U & _ & _ & U1 & U2).
  destruct (spread eta beta r' Ht Hb Hr') as (v & V & _ & _ & V1 & V2).
  assert (u = q) by congruence. assert (v = q') by congruence. subst u v. clear U V.
  assert (P0 : 0 < Rpower beta (- (eta + 1))) by apply Rpower_gt0.
  assert (P1 : Rpower beta (- (eta + 1)) <= 1).
  { assert (PB : Rpower beta (- (eta + 1)) * Rpower beta (eta + 1) = 1) by (apply Rpower_neg; lra).
    pose proof (Rle_Rpower_l 1 beta (eta + 1)) as K. rewrite <- (pw_pos 1), pw_one in K by lra.
    specialize (K ltac:(lra) ltac:(lra)). nra. }
  set (p := Rpower beta (- (eta + 1))) in *.
  assert (N : 0 < 1 / (eta + 1)) by (apply Rdiv_lt_0_compat; lra).
  red in Hr, Hr'.
  destruct (Rle_dec (r * (2 - p)) 1) as [H|H]; destruct (Rle_dec (r' * (2 - p)) 1) as [H'|H'].
  - rewrite U1, V1 by assumption. apply pw_mono; [nra|exact N].
  - rewrite U1 by assumption. destruct V2 as [V2 _]; [lra|]. pose proof (pw_le1 (r * (2 - p)) (1 / (eta + 1))) as K.
    specialize (K ltac:(nra) N). lra.
  - exfalso. nra.
  - destruct U2 as [_ ->]; [lra|]. destruct V2 as [_ ->]; [lra|].
    apply Rle_Rpower_l; [lra|]. split.
    + apply Rdiv_lt_0_compat; nra.
    + unfold Rdiv. rewrite !Rmult_1_l. apply Rinv_le_contravar; nra.
Qed.

Lemma beta_ge1 : forall eps t d, 0 < eps -> 0 <= t -> 0 < d -> 1 <= 1 + 2 * t / (d + eps).
Proof.
  intros eps t d He Ht Hd. assert (0 <= 2 * t / (d + eps)); [|lra].
  apply Rmult_le_pos; [lra|]. apply Rlt_le, Rinv_0_lt_compat. lra.
Qed.

Lemma reach_le : forall eps t d, 0 < eps -> 0 <= t -> 0 < d -> (1 + 2 * t / (d + eps)) * d <= d + 2 * t.
Proof.
  intros eps t d He Ht Hd.
  replace ((1 + 2 * t / (d + eps)) * d) with (d + 2 * t * (d / (d + eps))) by (field; lra).
  assert (d / (d + eps) <= 1).
  { apply Rmult_le_reg_r with (d + eps); [lra|]. unfold Rdiv. rewrite Rmult_assoc, Rinv_l by lra. lra. }
  nra.
Qed.

Lemma child_a_ok : forall eps eta lb y1 y2 rand, 0 < eps -> 0 <= eta -> lb <= y1 -> y1 < y2 -> unit_draw rand ->
  exists a, child_a eps eta lb y1 y2 rand = Some a /\ lb <= a <= (y1 + y2) / 2 /\ (rand <= 1 / 2 -> y1 <= a).
Proof.
  intros eps eta lb y1 y2 rand He Ht H1 H2 Hr. unfold child_a. rewrite py_div_ok by lra.
  assert (B := beta_ge1 eps (y1 - lb) (y2 - y1) He ltac:(lra) ltac:(lra)).
  rewrite py_pow_pos by lra.
  destruct (spread eta _ rand Ht B Hr) as (q & Q & Q1 & Q2 & _). rewrite Q.
  assert (R := reach_le eps (y1 - lb) (y2 - y1) He ltac:(lra) ltac:(lra)).
  eexists. split; [reflexivity|].
  assert (q * (y2 - y1) <= y2 - y1 + 2 * (y1 - lb)) by nra.
  assert (0 <= q * (y2 - y1)) by nra.
  split; [lra|]. intros H5. specialize (Q2 H5). nra.
Qed.

Lemma child_b_mirror : forall eps eta ub y1 y2 rand,
  child_b eps eta ub y1 y2 rand = option_map Ropp (child_a eps eta (- ub) (- y2) (- y1) rand).
Proof.
  intros. unfold child_a, child_b.
  replace (- y2 - - ub) with (ub - y2) by ring. replace (- y1 - - y2) with (y2 - y1) by ring.
  destruct (py_div (2 * (ub - y2)) (y2 - y1 + eps)); [|reflexivity].
  destruct (py_pow (1 + r) (- (eta + 1))); [|reflexivity].
  destruct (get_beta_q rand (2 - r0) eta); [|reflexivity].
  cbn. f_equal. field.
Qed.

Lemma child_b_ok : forall eps eta ub y1 y2 rand, 0 < eps -> 0 <= eta -> y2 <= ub -> y1 < y2 -> unit_draw rand ->
  exists b, child_b eps eta ub y1 y2 rand = Some b /\ (y1 + y2) / 2 <= b <= ub /\ (rand <= 1 / 2 -> b <= y2).
Proof.
  intros eps eta ub y1 y2 rand He Ht H1 H2 Hr. rewrite child_b_mirror.
  destruct (child_a_ok eps eta (- ub) (- y2) (- y1) rand) as (a & -> & A1 & A2); try assumption; try lra.
  exists (- a). split; [reflexivity|]. split; [lra|]. intros H. specialize (A2 H). lra.
Qed.

Lemma child_a_monotone : forall eps eta lb y1 y2 r r' a a', 0 < eps -> 0 <= eta -> lb <= y1 -> y1 < y2 ->
  unit_draw r -> unit_draw r' -> r <= r' ->
  child_a eps eta lb y1 y2 r = Some a -> child_a eps eta lb y1 y2 r' = Some a' -> a' <= a.
Proof.
  intros eps eta lb y1 y2 r r' a a' He Ht H1 H2 Hr Hr' L. unfold child_a. rewrite py_div_ok by lra.
  assert (B := beta_ge1 eps (y1 - lb) (y2 - y1) He ltac:(lra) ltac:(lra)).
  rewrite py_pow_pos by lra.
  destruct (spread eta _ r Ht B Hr) as (q & Q & _). destruct (spread eta _ r' Ht B Hr') as (q' & Q' & _).
  pose proof (spread_monotone _ _ _ _ _ _ Ht B Hr Hr' L Q Q').
  rewrite Q, Q'. intros E E'. injection E as <-. injection E' as <-. nra.
Qed.

Section Crossover.
  Variables eps eta : R.
  Variables skip rand swap : nat -> R.
  Hypothesis He : 0 < eps.
  Hypothesis Ht : 0 <= eta.
  Hypothesis Hr : forall i, unit_draw (rand i).

  (** what happens to gene i with bounds d and parents x, y; [a], [b] the genes of the two children *)
  Definition gene_rule (i : nat) (d : R * R) (x y a b : R) : Prop :=
    ((1 / 2 < skip i \/ Rabs (x - y) <= eps) /\ a = x /\ b = y) \/
    (skip i <= 1 / 2 /\ eps < Rabs (x - y) /\
     exists lo hi,
       child_a eps eta (fst d) (Rmin x y) (Rmax x y) (rand i) = Some lo /\
       child_b eps eta (snd d) (Rmin x y) (Rmax x y) (rand i) = Some hi /\
       fst d <= lo <= (x + y) / 2 /\ (x + y) / 2 <= hi <= snd d /\
       (rand i <= 1 / 2 -> Rmin x y <= lo /\ hi <= Rmax x y) /\
       ((swap i <= 1 / 2 /\ a = lo /\ b = hi) \/ (1 / 2 < swap i /\ a = hi /\ b = lo))).

  Lemma rsbx_loop_ok : forall dims xs ys i nx ny,
    length nx = length xs -> length ny = length ys ->
    (forall j d, nth_error dims j = Some d ->
       exists x y, nth_error xs (i + j) = Some x /\ nth_error ys (i + j) = Some y /\
                   fst d <= x <= snd d /\ fst d <= y <= snd d /\
                   nth_error nx (i + j) = Some x /\ nth_error ny (i + j) = Some y) ->
    exists ca cb, rsbx_loop eps eta skip rand swap xs ys i dims nx ny = Some (ca, cb) /\
      length ca = length nx /\ length cb = length ny /\
      (forall k, (k < i)%nat -> nth_error ca k = nth_error nx k /\ nth_error cb k = nth_error ny k) /\
      forall j d x y, nth_error dims j = Some d -> nth_error xs (i + j) = Some x -> nth_error ys (i + j) = Some y ->
        exists a b, nth_error ca (i + j) = Some a /\ nth_error cb (i + j) = Some b /\ gene_rule (i + j) d x y a b.
  Proof.
    induction dims as [|[lb ub] dims IH]; intros xs ys i nx ny Lx Ly H; cbn [rsbx_loop].
    - exists nx, ny. split; [reflexivity|]. split; [reflexivity|]. split; [reflexivity|]. split; [auto|].
      intros [|j] d x y E; discriminate.
    - destruct (H O (lb, ub) eq_refl) as (x0 & y0 & Ex & Ey & Bx & By & Nx & Ny).
      rewrite Nat.add_0_r in Ex, Ey, Nx, Ny. cbn in Bx, By.
      assert (T : forall nx' ny', (forall k, (i < k)%nat -> nth_error nx' k = nth_error nx k /\ nth_error ny' k = nth_error ny k) ->
         forall j d, nth_error dims j = Some d ->
           exists x y, nth_error xs (S i + j) = Some x /\ nth_error ys (S i + j) = Some y /\
                       fst d <= x <= snd d /\ fst d <= y <= snd d /\
                       nth_error nx' (S i + j) = Some x /\ nth_error ny' (S i + j) = Some y).
      { intros nx' ny' E j d Ed. destruct (H (S j) d Ed) as (x & y & E1 & E2 & E3 & E4 & E5 & E6).
        replace (i + S j)%nat with (S i + j)%nat in E1, E2, E5, E6 by lia.
        destruct (E (S i + j)%nat) as [F1 F2]; [lia|].
        exists x, y. rewrite F1, F2. auto 8. }
      (* how the rest of the list and gene i combine, whatever happened to gene i *)
      assert (Go : forall nx' ny' a b,
        length nx' = length nx -> length ny' = length ny ->
        (forall k, (k <> i)%nat -> nth_error nx' k = nth_error nx k /\ nth_error ny' k = nth_error ny k) ->
        nth_error nx' i = Some a -> nth_error ny' i = Some b -> gene_rule i (lb, ub) x0 y0 a b ->
        exists ca cb, rsbx_loop eps eta skip rand swap xs ys (S i) dims nx' ny' = Some (ca, cb) /\
          length ca = length nx /\ length cb = length ny /\
          (forall k, (k < i)%nat -> nth_error ca k = nth_error nx k /\ nth_error cb k = nth_error ny k) /\
          forall j d x y, nth_error ((lb, ub) :: dims) j = Some d -> nth_error xs (i + j) = Some x -> nth_error ys (i + j) = Some y ->
            exists a b, nth_error ca (i + j) = Some a /\ nth_error cb (i + j) = Some b /\ gene_rule (i + j) d x y a b).
      { intros nx' ny' a b L1 L2 O Na Nb G.
        destruct (IH xs ys (S i) nx' ny') as (ca & cb & E & M1 & M2 & K & J); [congruence|congruence| |].
        { apply T. intros k Hk. apply O. lia. }
        exists ca, cb. split; [exact E|]. split; [congruence|]. split; [congruence|]. split.
        - intros k Hk. destruct (K k) as [K1 K2]; [lia|]. destruct (O k) as [O1 O2]; [lia|]. split; congruence.
        - intros [|j] d x y Ed Exx Eyy.
          + rewrite Nat.add_0_r in Exx, Eyy |- *. cbn in Ed. injection Ed as <-.
            assert (x0 = x) by congruence. assert (y0 = y) by congruence. subst x0 y0.
            destruct (K i) as [K1 K2]; [lia|]. exists a, b. split; [congruence|]. split; [congruence|]. exact G.
          + replace (i + S j)%nat with (S i + j)%nat in Exx, Eyy |- * by lia. exact (J j d x y Ed Exx Eyy). }
      destruct (Rlt_dec (1 / 2) (skip i)) as [S0|S0].
      { apply (Go nx ny x0 y0); auto. left. auto. }
      rewrite Ex, Ey. destruct (Rle_dec (Rabs (x0 - y0)) eps) as [D0|D0].
      { apply (Go nx ny x0 y0); auto. left. auto. }
      assert (D1 : x0 <> y0). { intros ->. apply D0. replace (y0 - y0) with 0 by ring. rewrite Rabs_R0. lra. }
      assert (MM : Rmin x0 y0 < Rmax x0 y0 /\ Rmin x0 y0 + Rmax x0 y0 = x0 + y0 /\ lb <= Rmin x0 y0 /\ Rmax x0 y0 <= ub).
      { unfold Rmin, Rmax. destruct (Rle_dec x0 y0); lra. }
      destruct MM as (M1 & M2 & M3 & M4).
      destruct (child_a_ok eps eta lb _ _ (rand i) He Ht M3 M1 (Hr i)) as (lo & El & Bl & Cl).
      destruct (child_b_ok eps eta ub _ _ (rand i) He Ht M4 M1 (Hr i)) as (hi & Eh & Bh & Ch).
      rewrite El, Eh. rewrite M2 in Bl, Bh. rewrite !clamp_id by lra.
      assert (Lix : (i < length nx)%nat) by (apply nth_error_Some; congruence).
      assert (Liy : (i < length ny)%nat) by (apply nth_error_Some; congruence).
      assert (R : forall a b, ((swap i <= 1 / 2 /\ a = lo /\ b = hi) \/ (1 / 2 < swap i /\ a = hi /\ b = lo)) ->
                  gene_rule i (lb, ub) x0 y0 a b).
      { intros a b HH. right. split; [lra|]. split; [lra|]. exists lo, hi. cbn [fst snd]. auto 9. }
      destruct (Rlt_dec (1 / 2) (swap i)) as [W|W].
      + apply (Go _ _ hi lo); [apply put_length|apply put_length| | | |].
        * intros k Hk. split; apply put_other; auto.
        * apply put_same; assumption.
        * apply put_same; assumption.
        * apply R. right. auto.
      + apply (Go _ _ lo hi); [apply put_length|apply put_length| | | |].
        * intros k Hk. split; apply put_other; auto.
        * apply put_same; assumption.
        * apply put_same; assumption.
        * apply R. left. split; [lra|auto].
  Qed.

  Lemma rsbx_ok : forall dims xs ys, in_rbox dims xs -> in_rbox dims ys ->
    exists ca cb, rsbx_loop eps eta skip rand swap xs ys 0 dims xs ys = Some (ca, cb) /\
      in_rbox dims ca /\ in_rbox dims cb /\
      forall i d x y, nth_error dims i = Some d -> nth_error xs i = Some x -> nth_error ys i = Some y ->
        exists a b, nth_error ca i = Some a /\ nth_error cb i = Some b /\ gene_rule i d x y a b.
  Proof.
    intros dims xs ys Bx By. destruct (in_rbox_nth _ _ Bx) as [Lx Nx]. destruct (in_rbox_nth _ _ By) as [Ly Ny].
    destruct (rsbx_loop_ok dims xs ys 0 xs ys eq_refl eq_refl) as (ca & cb & E & La & Lb & _ & J).
    { intros j d Ed. destruct (Nx j d Ed) as (x & Ex & Hx). destruct (Ny j d Ed) as (y & Ey & Hy).
      exists x, y. cbn [Nat.add]. auto 8. }
    exists ca, cb. split; [exact E|].
    assert (G : forall i d, nth_error dims i = Some d -> exists a b,
              nth_error ca i = Some a /\ nth_error cb i = Some b /\ fst d <= a <= snd d /\ fst d <= b <= snd d).
    { intros i d Ed. destruct (Nx i d Ed) as (x & Ex & Hx). destruct (Ny i d Ed) as (y & Ey & Hy).
      destruct (J i d x y Ed Ex Ey) as (a & b & Ea & Eb & R). cbn [Nat.add] in *. exists a, b.
      split; [exact Ea|]. split; [exact Eb|].
      destruct R as [(_ & -> & ->)|(_ & _ & lo & hi & _ & _ & B1 & B2 & _ & [(_ & -> & ->)|(_ & -> & ->)])]; lra. }
    split; [|split].
    - apply nth_in_rbox; [congruence|]. intros i d Ed. destruct (G i d Ed) as (a & b & Ea & _ & Ba & _). eauto.
    - apply nth_in_rbox; [congruence|]. intros i d Ed. destruct (G i d Ed) as (a & b & _ & Eb & _ & Bb). eauto.
    - exact J.
  Qed.
End Crossover.

(** ---- OMOPSO's non-uniform mutation ---- *)
Lemma non_uniform_ok : forall progress b rand y, 0 <= progress <= 1 -> 0 < b -> unit_draw rand ->
  exists t, non_uniform_delta progress b rand y = Some (y * t) /\ 0 <= t <= 1 /\ (progress = 1 -> t = 0).
Proof.
  intros g b rand y Hg Hb Hr. red in Hr. unfold non_uniform_delta. rewrite py_pow_pw by lra.
  destruct (Req_dec g 1) as [->|Hn].
  - replace (1 - 1) with 0 by ring. rewrite pw_zero.
    destruct (Req_dec rand 0) as [->|Hz].
    + unfold py_pow. destruct (Rlt_dec 0 0); [lra|]. destruct (Req_EM_T 0 0); [|lra].
      exists 0. split; [f_equal; ring|]. split; [lra|reflexivity].
    + rewrite py_pow_pos by lra. rewrite Rpower_O by lra. exists 0. split; [f_equal; ring|]. split; [lra|reflexivity].
  - rewrite (pw_pos (1 - g)) by lra. rewrite py_pow_pw by (try apply Rpower_gt0; lra).
    exists (1 - pw rand (Rpower (1 - g) b)). split; [reflexivity|].
    split; [|intros; contradiction].
    pose proof (pw_ge0 rand (Rpower (1 - g) b)). pose proof (pw_le1 rand (Rpower (1 - g) b) Hr (Rpower_gt0 _ _)). lra.
Qed.

Lemma non_uniform_cools : forall g g' b rand y m m', 0 <= g <= g' -> g' <= 1 -> 0 < b -> unit_draw rand ->
  non_uniform_delta g b rand y = Some m -> non_uniform_delta g' b rand y = Some m' -> Rabs m' <= Rabs m.
Proof.
  intros g g' b rand y m m' Hg Hg' Hb Hr E E'.
  destruct (non_uniform_ok g b rand y) as (t & T & T1 & _); try assumption; [lra|].
  destruct (non_uniform_ok g' b rand y) as (t' & T' & T1' & T2'); try assumption; [lra|].
  assert (m = y * t) by congruence. assert (m' = y * t') by congruence. subst m m'.
  destruct (Req_dec y 0) as [->|Hy]; [rewrite !Rmult_0_l; lra|].
  rewrite !Rabs_mult. apply Rmult_le_compat_l; [apply Rabs_pos|].
  rewrite !Rabs_right by lra.
  destruct (Req_dec g' 1) as [->|Hn]; [rewrite T2' by reflexivity; lra|].
  unfold non_uniform_delta in T, T'. rewrite py_pow_pw in T, T' by lra.
  rewrite (pw_pos (1 - g)) in T by lra. rewrite (pw_pos (1 - g')) in T' by lra.
  red in Hr. rewrite py_pow_pw in T, T' by (try apply Rpower_gt0; lra).
  injection T as T. injection T' as T'.
  apply Rmult_eq_reg_l in T; [|exact Hy]. apply Rmult_eq_reg_l in T'; [|exact Hy]. subst t t'.
  assert (pw rand (Rpower (1 - g) b) <= pw rand (Rpower (1 - g') b)); [|lra].
  apply pw_exp_anti; [exact Hr|]. split; [apply Rpower_gt0|]. apply Rle_Rpower_l; lra.
Qed.

Lemma non_uniform_gene : forall g b lb ub up rand x, 0 <= g <= 1 -> 0 < b -> unit_draw rand -> lb <= x <= ub ->
  exists m, non_uniform_mutation g b lb ub up rand x = Some m /\ lb <= x + m <= ub /\
    (if up then 0 <= m else m <= 0) /\ (g = 1 -> m = 0).
Proof.
  intros g b lb ub up rand x Hg Hb Hr Hx. unfold non_uniform_mutation. destruct up.
  - destruct (non_uniform_ok g b rand (ub - x) Hg Hb Hr) as (t & -> & T & T1). eexists. split; [reflexivity|].
    split; [nra|]. split; [nra|]. intros H. rewrite T1 by exact H. ring.
  - destruct (non_uniform_ok g b rand (lb - x) Hg Hb Hr) as (t & -> & T & T1). eexists. split; [reflexivity|].
    split; [nra|]. split; [nra|]. intros H. rewrite T1 by exact H. ring.
Qed.

Lemma non_uniform_call_ok : forall g b touch up rand, 0 <= g <= 1 -> 0 < b -> (forall i, unit_draw (rand i)) ->
  forall dims value i, in_rbox dims value ->
  exists vs, non_uniform_call g b touch up rand i dims value = Some vs /\ in_rbox dims vs /\
    forall j d x, nth_error dims j = Some d -> nth_error value j = Some x ->
      exists y, nth_error vs j = Some y /\
        (touch (i + j)%nat = false -> y = x) /\
        (touch (i + j)%nat = true -> exists m,
           non_uniform_mutation g b (fst d) (snd d) (up (i + j)%nat) (rand (i + j)%nat) x = Some m /\ y = x + m).
Proof.
  intros g b touch up rand Hg Hb Hr dims value i B. revert i.
  induction B as [|[lb ub] x dims value Bx B IH]; intros i; cbn [non_uniform_call].
  - exists []. split; [reflexivity|]. split; [constructor|]. intros [|j] d x E; discriminate.
  - cbn in Bx. destruct (IH (S i)) as (vs & -> & Bv & J).
    assert (Nx : forall y, (touch i = false -> y = x) ->
        (touch i = true -> exists m, non_uniform_mutation g b lb ub (up i) (rand i) x = Some m /\ y = x + m) ->
        forall j d x', nth_error ((lb, ub) :: dims) j = Some d -> nth_error (x :: value) j = Some x' ->
          exists y', nth_error (y :: vs) j = Some y' /\
            (touch (i + j)%nat = false -> y' = x') /\
            (touch (i + j)%nat = true -> exists m,
               non_uniform_mutation g b (fst d) (snd d) (up (i + j)%nat) (rand (i + j)%nat) x' = Some m /\ y' = x' + m)).
    { intros y Y1 Y2 [|j] d x' Ed Ex; cbn in Ed, Ex |- *.
      - injection Ed as <-. injection Ex as <-. rewrite Nat.add_0_r. exists y. auto.
      - replace (i + S j)%nat with (S i + j)%nat by lia. exact (J j d x' Ed Ex). }
    destruct (touch i) eqn:Et.
    + destruct (non_uniform_gene g b lb ub (up i) (rand i) x Hg Hb (Hr i) Bx) as (m & Em & Bm & _). rewrite Em.
      rewrite Rmax_left by lra. rewrite Rmin_left by lra.
      eexists. split; [reflexivity|]. split; [constructor; [exact Bm|exact Bv]|].
      apply Nx; [discriminate|]. intros _. eauto.
    + eexists. split; [reflexivity|]. split; [constructor; [exact Bx|exact Bv]|].
      apply Nx; [reflexivity|discriminate].
Qed.

(** ---- the distributions behind the formulas ---- *)
Lemma pw_inv' : forall x a, 0 <= x -> 0 < a -> pw (pw x (1 / a)) a = x.
Proof.
  intros x a H Ha. rewrite pw_pw by assumption. replace (1 / a * a) with 1 by (field; lra). apply pw_1r; assumption.
Qed.

Lemma spread_law : forall eta beta rand q, 0 <= eta -> 1 <= beta -> unit_draw rand ->
  get_beta_q rand (2 - Rpower beta (- (eta + 1))) eta = Some q ->
  sbx_law (eta + 1) q = rand * (2 - Rpower beta (- (eta + 1))).
Proof.
  intros eta beta rand q Ht Hb Hr Q.
  destruct (spread eta beta rand Ht Hb Hr) as (u & U & _ & _ & U1 & U2).
  assert (u = q) by congruence. subst u. clear U Q.
  assert (P0 : 0 < Rpower beta (- (eta + 1))) by apply Rpower_gt0.
  assert (P1 : Rpower beta (- (eta + 1)) <= 1).
  { assert (PB : Rpower beta (- (eta + 1)) * Rpower beta (eta + 1) = 1) by (apply Rpower_neg; lra).
    pose proof (Rle_Rpower_l 1 beta (eta + 1)) as K. rewrite <- (pw_pos 1), pw_one in K by lra.
    specialize (K ltac:(lra) ltac:(lra)). nra. }
  set (p := Rpower beta (- (eta + 1))) in *.
  assert (N : 0 < 1 / (eta + 1)) by (apply Rdiv_lt_0_compat; lra).
  red in Hr. unfold sbx_law.
  destruct (Rle_dec (rand * (2 - p)) 1) as [H|H].
  - specialize (U1 H). assert (Q1 : q <= 1) by (rewrite U1; apply pw_le1; [nra|exact N]).
    destruct (Rle_dec q 1); [|contradiction]. rewrite U1. apply pw_inv'; [nra|lra].
  - destruct U2 as [G E]; [lra|].
    assert (D0 : 0 < 2 - rand * (2 - p) < 1) by nra.
    assert (DP : 0 < 1 / (2 - rand * (2 - p))) by (apply Rdiv_lt_0_compat; lra).
    assert (R1 : Rpower q (- (eta + 1)) = 2 - rand * (2 - p)).
    { rewrite E, Rpower_mult. replace (1 / (eta + 1) * - (eta + 1)) with (- (1)) by (field; lra).
      rewrite Rpower_Ropp, Rpower_1 by exact DP. field. lra. }
    destruct (Rle_dec q 1) as [L|L].
    + assert (q = 1) by lra. subst q. rewrite H0 in R1. rewrite <- (pw_pos 1), pw_one in R1 by lra. lra.
    + rewrite R1. ring.
Qed.

Lemma perturbed_law : forall eps eta lb ub y rnd y', 0 < eps -> 0 <= eta -> lb < ub -> lb <= y <= ub -> unit_draw rnd ->
  perturbed eps eta lb ub y rnd = Some y' ->
  let n := eta + 1 in
  let move := (y' - y) / (ub - lb) in
  let down := (ub - y + eps) / (ub - lb + eps) in
  let up := (y - lb + eps) / (ub - lb + eps) in
  (rnd <= 1 / 2 -> pw (1 + move) n = 2 * rnd + (1 - 2 * rnd) * pw down n) /\
  (1 / 2 < rnd -> pw (1 - move) n = 2 * (1 - rnd) + (1 - 2 * (1 - rnd)) * pw up n).
Proof.
  intros eps eta lb ub y rnd y' He Ht Hb Hy Hr E n move down up.
  rewrite perturbed_value in E by assumption. injection E as E. red in Hr.
  assert (P : forall x w, 0 <= x -> 0 <= w <= 1 -> 0 <= w + (1 - w) * pw x n).
  { intros x w Hx Hw. pose proof (pw_ge0 x n). nra. }
  assert (F : forall w x, 0 <= x -> 0 <= w <= 1 -> pw (1 - shrink w x n) n = w + (1 - w) * pw x n).
  { intros w x Hx Hw. unfold shrink. replace (1 - (1 - pw (w + (1 - w) * pw x n) (1 / n)))
      with (pw (w + (1 - w) * pw x n) (1 / n)) by ring. apply pw_inv'; [apply P; assumption|unfold n; lra]. }
  split; intros H; destruct (Rle_dec rnd (1 / 2)); try lra.
  - assert (RR := room_range eps lb ub (ub - y) He ltac:(lra)).
    replace (1 + move) with (1 - shrink (2 * rnd) (room eps lb ub (ub - y)) n).
    + rewrite F by lra. reflexivity.
    + unfold move. rewrite <- E. fold n. field. lra.
  - assert (RR := room_range eps lb ub (y - lb) He ltac:(lra)).
    replace (1 - move) with (1 - shrink (2 * (1 - rnd)) (room eps lb ub (y - lb)) n).
    + rewrite F by lra. reflexivity.
    + unfold move. rewrite <- E. fold n. field. lra.
Qed.

Lemma child_a_law : forall eps eta lb y1 y2 rand a, 0 < eps -> 0 <= eta -> lb <= y1 -> y1 < y2 -> unit_draw rand ->
  child_a eps eta lb y1 y2 rand = Some a ->
  let q := (y1 + y2 - 2 * a) / (y2 - y1) in
  let beta := 1 + 2 * (y1 - lb) / (y2 - y1 + eps) in
  sbx_law (eta + 1) q = rand * sbx_law (eta + 1) beta.
Proof.
  intros eps eta lb y1 y2 rand a He Ht H1 H2 Hr E q beta. unfold child_a in E. rewrite py_div_ok in E by lra.
  assert (B := beta_ge1 eps (y1 - lb) (y2 - y1) He ltac:(lra) ltac:(lra)).
  rewrite py_pow_pos in E by lra. fold beta in E, B.
  destruct (spread eta beta rand Ht B Hr) as (u & U & _). rewrite U in E. injection E as E.
  assert (Q : q = u). { unfold q. rewrite <- E. field. lra. }
  rewrite Q, (spread_law eta beta rand u Ht B Hr U). f_equal.
  unfold sbx_law. destruct (Rle_dec beta 1); [|reflexivity].
  assert (Eb : beta = 1) by lra. rewrite Eb. rewrite <- (pw_pos 1), !pw_one by lra. ring.
Qed.
