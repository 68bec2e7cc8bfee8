(** Proofs for C161. *)
From Coq Require Import Reals List Lra Lia.
From Coquelicot Require Import Coquelicot.
From Verif Require Import OpModel OpSpec OpProofs OpProofs2 OpProps SimplexSpec SimplexProofs UnifSpec UnifProofs MoveSpec.
Import ListNotations.
Local Open Scope R_scope.

Lemma mean_ext n : forall f f' p, (forall us, length us = n -> List.Forall (fun u => 0 < u < 1) us -> f us = f' us) ->
  mean n f p -> mean n f' p.
Proof.
  induction n as [|n IH]; cbn [mean]; intros f f' p E M.
  - rewrite <- E; [exact M | reflexivity | constructor].
  - destruct M as (g & Hg & I). exists g. split; [|exact I]. intros u Hu.
    apply (IH (fun us => f (u :: us))); [|now apply Hg]. intros us L F. apply E; [cbn; lia | now constructor].
Qed.

(** A factor for each two draws. *)
Fixpoint factors2 (hs : list (R -> R -> R)) (us : list R) : R :=
  match hs with [] => 1 | h :: hs' => h (hd 0 us) (hd 0 (tl us)) * factors2 hs' (tl (tl us)) end.
Definition mean2 (h : R -> R -> R) (p : R) : Prop :=
  exists g, (forall u, 0 < u < 1 -> is_RInt (h u) 0 1 (g u)) /\ is_RInt g 0 1 p.
Fixpoint double (n : nat) : nat := match n with O => O | S n' => S (S (double n')) end.
Lemma double_2 n : double n = (2 * n)%nat.
Proof. induction n; cbn [double]; lia. Qed.

Lemma mean_factors2 : forall hs ps, Forall2 mean2 hs ps -> mean (double (length hs)) (factors2 hs) (product ps).
Proof.
  induction 1 as [|h p hs ps (g & Hg & I) F IH]; cbn [length double mean factors2 product fold_right]; [reflexivity|].
  fold (product ps). exists (fun u => product ps * g u). split.
  - intros u Hu. exists (fun v => product ps * h u v). split.
    + intros v Hv. cbn [hd tl]. rewrite (Rmult_comm (product ps)). apply mean_scale. exact IH.
    + exact (is_RInt_scal (h u) 0 1 (product ps) (g u) (Hg u Hu)).
  - rewrite (Rmult_comm p). exact (is_RInt_scal g 0 1 (product ps) p I).
Qed.

Lemma is_RInt_two c a b (f : R -> R) : 0 <= c <= 1 ->
  (forall u, 0 < u < c -> f u = a) -> (forall u, c < u < 1 -> f u = b) -> is_RInt f 0 1 (c * a + (1 - c) * b).
Proof.
  intros Hc A B.
  assert (I1 : is_RInt f 0 c ((c - 0) * a)).
  { apply (is_RInt_ext (fun _ => a)); [|apply is_RInt_const_R]. rewrite Rmin_left, Rmax_right by lra. intros u Hu. symmetry. now apply A. }
  assert (I2 : is_RInt f c 1 ((1 - c) * b)).
  { apply (is_RInt_ext (fun _ => b)); [|apply is_RInt_const_R]. rewrite Rmin_left, Rmax_right by lra. intros u Hu. symmetry. now apply B. }
  replace (c * a + (1 - c) * b) with (plus ((c - 0) * a) ((1 - c) * b)) by (unfold plus; cbn; ring).
  exact (is_RInt_Chasles _ _ _ _ _ _ I1 I2).
Qed.

Lemma pw_lt1 x y : 0 <= x < 1 -> 0 < y -> pw x y < 1.
Proof.
  intros Hx Hy. unfold pw. destruct (Req_EM_T x 0); [lra|]. unfold Rpower. rewrite <- exp_0. apply exp_increasing.
  assert (ln x < 0) by (rewrite <- ln_1; apply ln_increasing; lra). nra.
Qed.
Lemma shrink_pos w x n : 0 <= w < 1 -> 0 < x < 1 -> 0 < n -> 0 < shrink w x n.
Proof.
  intros Hw Hx Hn. unfold shrink.
  assert (P : 0 <= pw x n < 1) by (split; [apply pw_ge0 | apply pw_lt1; lra]).
  assert (N : 0 < 1 / n) by (apply Rdiv_lt_0_compat; lra).
  pose proof (pw_lt1 (w + (1 - w) * pw x n) (1 / n)) as K. assert (0 <= w + (1 - w) * pw x n < 1) by nra. specialize (K H N). lra.
Qed.
Lemma room_lt1 eps lb ub far : 0 < eps -> far < ub - lb -> lb <= ub -> room eps lb ub far < 1.
Proof.
  intros He H L. unfold room. apply Rmult_lt_reg_r with (ub - lb + eps); [lra|].
  unfold Rdiv. rewrite Rmult_assoc, Rinv_l by lra. lra.
Qed.

Definition moved_dec m x y : {moved m x y} + {~ moved m x y}.
Proof. destruct m; cbn; [apply Rlt_dec | apply Req_EM_T | apply Rlt_dec]. Defined.
Definition move_eqb (m m' : move) : bool :=
  match m, m' with Down, Down | Kept, Kept | Up, Up => true | _, _ => false end.
Definition one_if (b : bool) : R := if b then 1 else 0.

Section Gene.
  Variables eps eta rate : R.
  Hypothesis He : 0 < eps.
  Hypothesis Ht : 0 <= eta.
  Hypothesis Hrate : 0 <= rate <= 1.

  (** The gene after mutation. *)
  Definition out (g : (R * R) * R) (s r : R) : R :=
    if Rlt_dec rate s then snd g
    else match perturbed eps eta (fst (fst g)) (snd (fst g)) (snd g) r with Some y => y | None => 0 end.
  Definition hit (gm : ((R * R) * R) * move) (s r : R) : R :=
    if moved_dec (snd gm) (snd (fst gm)) (out (fst gm) s r) then 1 else 0.

  Lemma moved_one m a x y : moved a x y -> (if moved_dec m x y then 1 else 0) = one_if (move_eqb m a).
  Proof. intros H. destruct (moved_dec m x y) as [H'|H']; destruct m, a; cbn in *; try reflexivity; exfalso; lra. Qed.

  Lemma hit_mean lb ub x m : lb <= x <= ub -> mean2 (hit (((lb, ub), x), m)) (chance_of_move rate (lb, ub) x m).
  Proof.
    intros B.
    set (a := if Rlt_dec lb x then Down else Kept). set (b := if Rlt_dec x ub then Up else Kept).
    assert (L : forall s r, s <= rate -> 0 < r < 1 / 2 -> hit (((lb, ub), x), m) s r = one_if (move_eqb m a)).
    { intros s r Hs Hr. unfold hit, out. cbn [fst snd]. apply moved_one. destruct (Rlt_dec rate s); [lra|].
      rewrite perturbed_value; [|assumption..|red; lra]. destruct (Rle_dec r (1 / 2)); [|lra]. unfold a.
      destruct (Rlt_dec lb x); cbn [moved].
      - pose proof (shrink_pos (2 * r) (room eps lb ub (ub - x)) (eta + 1)) as K.
        pose proof (room_range eps lb ub (ub - x) He ltac:(lra)). pose proof (room_lt1 eps lb ub (ub - x) He ltac:(lra) ltac:(lra)).
        specialize (K ltac:(lra) ltac:(lra) ltac:(lra)). nra.
      - assert (x = lb) by lra. subst x. replace (room eps lb ub (ub - lb)) with 1 by (unfold room; field; lra).
        pose proof (shrink_range (2 * r) 1 (eta + 1) ltac:(lra) ltac:(lra) ltac:(lra)). replace (shrink (2 * r) 1 (eta + 1)) with 0 by lra. lra. }
    assert (U : forall s r, s <= rate -> 1 / 2 < r < 1 -> hit (((lb, ub), x), m) s r = one_if (move_eqb m b)).
    { intros s r Hs Hr. unfold hit, out. cbn [fst snd]. apply moved_one. destruct (Rlt_dec rate s); [lra|].
      rewrite perturbed_value; [|assumption..|red; lra]. destruct (Rle_dec r (1 / 2)); [lra|]. unfold b.
      destruct (Rlt_dec x ub); cbn [moved].
      - pose proof (shrink_pos (2 * (1 - r)) (room eps lb ub (x - lb)) (eta + 1)) as K.
        pose proof (room_range eps lb ub (x - lb) He ltac:(lra)). pose proof (room_lt1 eps lb ub (x - lb) He ltac:(lra) ltac:(lra)).
        specialize (K ltac:(lra) ltac:(lra) ltac:(lra)). nra.
      - assert (x = ub) by lra. subst x. replace (room eps lb ub (ub - lb)) with 1 by (unfold room; field; lra).
        pose proof (shrink_range (2 * (1 - r)) 1 (eta + 1) ltac:(lra) ltac:(lra) ltac:(lra)). replace (shrink (2 * (1 - r)) 1 (eta + 1)) with 0 by lra. lra. }
    assert (K : forall s r, rate < s -> hit (((lb, ub), x), m) s r = one_if (move_eqb m Kept)).
    { intros s r Hs. unfold hit, out. cbn [fst snd]. apply moved_one. destruct (Rlt_dec rate s); [reflexivity | lra]. }
    set (ga := 1 / 2 * one_if (move_eqb m a) + (1 - 1 / 2) * one_if (move_eqb m b)).
    set (gk := one_if (move_eqb m Kept)).
    exists (fun s => if Rlt_dec rate s then gk else ga). split.
    - intros s Hs. destruct (Rlt_dec rate s) as [H|H].
      + replace gk with (1 / 2 * gk + (1 - 1 / 2) * gk) by lra.
        apply is_RInt_two; [lra | |]; intros r Hr; now apply K.
      + apply is_RInt_two; [lra | |]; intros r Hr; [apply L | apply U]; lra.
    - replace (chance_of_move rate (lb, ub) x m) with (rate * ga + (1 - rate) * gk).
      + apply is_RInt_two; [lra | |]; intros s Hs; destruct (Rlt_dec rate s); try lra; reflexivity.
      + unfold ga, gk, a, b, chance_of_move. cbn [fst snd].
        destruct (Rlt_dec lb x), (Rlt_dec x ub), m; cbn [move_eqb one_if]; lra.
  Qed.

  Fixpoint outs (gs : list ((R * R) * R)) (us : list R) : list R :=
    match gs with [] => [] | g :: gs' => out g (hd 0 us) (hd 0 (tl us)) :: outs gs' (tl (tl us)) end.

  Lemma outs_nth gs : forall us i,
    nth_error (outs gs us) i = match nth_error gs i with Some g => Some (out g (nth (2 * i) us 0) (nth (2 * i + 1) us 0)) | None => None end.
  Proof.
    induction gs as [|g gs IH]; intros us [|i]; cbn [outs nth_error]; try reflexivity.
    - destruct us as [|u [|v us]]; reflexivity.
    - rewrite IH. destruct (nth_error gs i); [|reflexivity]. do 2 f_equal.
      + replace (2 * S i)%nat with (S (S (2 * i))) by lia. now rewrite !nth_tl.
      + replace (2 * S i + 1)%nat with (S (S (2 * i + 1))) by lia. now rewrite !nth_tl.
  Qed.
  Lemma outs_length gs : forall us, length (outs gs us) = length gs.
  Proof. induction gs as [|g gs IH]; intros us; cbn; [reflexivity | now rewrite IH]. Qed.

  Lemma nth_ext_error {A} : forall (l l' : list A), length l = length l' ->
    (forall i a, nth_error l i = Some a -> nth_error l' i = Some a) -> l = l'.
  Proof.
    induction l as [|x l IH]; intros [|y l'] L H; try discriminate; [reflexivity|]. injection L as L.
    pose proof (H 0%nat x eq_refl) as H0. cbn in H0. injection H0 as <-. f_equal. apply IH; [exact L|].
    intros i a Hi. exact (H (S i) a Hi).
  Qed.

  Lemma combine_nth_error {A B} : forall (l : list A) (l' : list B) i,
    nth_error (combine l l') i = match nth_error l i, nth_error l' i with Some a, Some b => Some (a, b) | _, _ => None end.
  Proof.
    induction l as [|a l IH]; intros [|b l'] [|i]; cbn [combine nth_error]; try reflexivity.
    - now destruct (nth_error l i).
    - apply IH.
  Qed.

  Lemma rmutate_outs dims xs us : in_rbox dims xs -> List.Forall (fun u => 0 < u < 1) us ->
    rmutate eps xs dims rate eta (fun i => nth (2 * i) us 0) (fun i => nth (2 * i + 1) us 0) = Some (outs (combine dims xs) us).
  Proof.
    intros B F.
    assert (N : forall j, unit_draw (nth j us 0)).
    { intros j. red. destruct (Nat.lt_ge_cases j (length us)) as [H|H].
      - rewrite Forall_forall in F. pose proof (F _ (nth_In us 0 H)). lra.
      - rewrite nth_overflow by exact H. lra. }
    destruct (C113_mutation eps eta rate (fun i => nth (2 * i) us 0) (fun i => nth (2 * i + 1) us 0) dims xs He Ht (fun i => N _) B)
      as (ys & E & B' & J).
    rewrite E. f_equal. symmetry. destruct (in_rbox_nth _ _ B) as [Lx _]. destruct (in_rbox_nth _ _ B') as [Ly _].
    apply nth_ext_error.
    - rewrite outs_length, combine_length. lia.
    - intros i a Ha. rewrite outs_nth, combine_nth_error in Ha.
      destruct (nth_error dims i) as [[lb ub]|] eqn:Ed; [|discriminate]. destruct (nth_error xs i) as [x|] eqn:Ex; [|discriminate].
      apply (f_equal (fun o => match o with Some z => z | None => a end)) in Ha. rewrite <- Ha. clear Ha. destruct (J i lb ub x Ed Ex) as (y & Ey & J1 & J2). rewrite Ey. f_equal. unfold out. cbn [fst snd].
      destruct (Rlt_dec rate (nth (2 * i) us 0)) as [H|H]; [exact (J1 H)|]. destruct (J2 (Rnot_lt_le _ _ H)) as (P & _). now rewrite P.
  Qed.

  Definition all_moved (moves : list move) (xs ys : list R) : Prop :=
    Forall2 (fun mx y => moved (fst mx) (snd mx) y) (combine moves xs) ys.
  Definition all_moved_dec moves xs ys : {all_moved moves xs ys} + {~ all_moved moves xs ys}.
  Proof.
    unfold all_moved. revert ys. induction (combine moves xs) as [|mx l IH]; intros [|y ys].
    - left. constructor.
    - right. intros H. inversion H.
    - right. intros H. inversion H.
    - destruct (moved_dec (fst mx) (snd mx) y) as [H|H]; [destruct (IH ys) as [H'|H']|].
      + left. now constructor.
      + right. intros G. inversion G. contradiction.
      + right. intros G. inversion G. contradiction.
  Defined.

  Lemma factors2_hit : forall dims xs moves us, length xs = length dims -> length moves = length xs ->
    factors2 (map hit (combine (combine dims xs) moves)) us = if all_moved_dec moves xs (outs (combine dims xs) us) then 1 else 0.
  Proof.
    induction dims as [|d dims IH]; intros [|x xs] [|m moves] us Lx Lm; try discriminate; cbn [combine map factors2 outs].
    - destruct (all_moved_dec _ _ _) as [H|H]; [reflexivity|]. exfalso. apply H. constructor.
    - injection Lx as Lx. injection Lm as Lm. rewrite (IH xs moves (tl (tl us)) Lx Lm). unfold hit. cbn [fst snd].
      destruct (moved_dec _ _ _) as [H|H], (all_moved_dec moves xs _) as [H'|H'], (all_moved_dec (m :: moves) (x :: xs) _) as [G|G];
        try ring; exfalso.
      + apply G. now constructor.
      + inversion G; subst. contradiction.
      + inversion G; subst. contradiction.
      + inversion G; subst. contradiction.
  Qed.
End Gene.
