(** Proofs for C162. *)
From Coq Require Import Reals List Lra Lia.
From Coquelicot Require Import Coquelicot.
From Verif Require Import OpModel OpSpec OpProofs OpProofs2 OpProps SimplexSpec SimplexProofs UnifSpec UnifProofs MoveSpec MoveProofs InheritSpec.
Import ListNotations.
Local Open Scope R_scope.

(** ---- exchanging the parents ---- *)
Definition flip (u : R) : R := if Rlt_dec (1 / 2) u then 1 - u else if Req_EM_T u (1 / 2) then 3 / 4 else 1 - u.

Lemma flip_side u : (1 / 2 < flip u <-> ~ 1 / 2 < u).
Proof. unfold flip. destruct (Rlt_dec (1 / 2) u); [|destruct (Req_EM_T u (1 / 2))]; split; intros; lra. Qed.
Lemma flip_unit u : 0 < u < 1 -> 0 < flip u < 1.
Proof. unfold flip. intros. destruct (Rlt_dec (1 / 2) u); [|destruct (Req_EM_T u (1 / 2))]; lra. Qed.

Lemma sbx_exchange eps eta skip rand swap xs ys dims : forall i nx ny,
  rsbx_loop eps eta skip rand (fun i => flip (swap i)) xs ys i dims nx ny =
  option_map (fun c => (snd c, fst c)) (rsbx_loop eps eta skip rand swap ys xs i dims ny nx).
Proof.
  induction dims as [|[lb ub] dims IH]; intros i nx ny; cbn [rsbx_loop]; [reflexivity|].
  destruct (Rlt_dec (1 / 2) (skip i)); [apply IH|].
  destruct (nth_error xs i) as [x|]; destruct (nth_error ys i) as [y|]; try reflexivity.
  rewrite (Rabs_minus_sym y x). destruct (Rle_dec (Rabs (x - y)) eps); [apply IH|].
  cbv zeta. rewrite (Rmin_comm y x), (Rmax_comm y x).
  destruct (child_a eps eta lb (Rmin x y) (Rmax x y) (rand i)) as [a|]; [|reflexivity].
  destruct (child_b eps eta ub (Rmin x y) (Rmax x y) (rand i)) as [b|]; [|reflexivity].
  pose proof (flip_side (swap i)) as F.
  destruct (Rlt_dec (1 / 2) (flip (swap i))) as [H|H], (Rlt_dec (1 / 2) (swap i)) as [H'|H']; try (exfalso; tauto); apply IH.
Qed.

Lemma crossover_exchange eps eta xs ys dims rate r0 pick skip rand swap :
  rcrossover eps ys xs dims rate eta r0 (negb pick) skip rand swap =
  rcrossover eps xs ys dims rate eta r0 pick skip rand (fun i => flip (swap i)).
Proof.
  unfold rcrossover. destruct (Rlt_dec rate r0); [now destruct pick|]. rewrite sbx_exchange.
  destruct (rsbx_loop eps eta skip rand swap ys xs 0 dims ys xs) as [[p q]|]; [|reflexivity]. now destruct pick.
Qed.

Lemma is_RInt_flip (g : R -> R) (p : R) : is_RInt g 0 1 p -> is_RInt (fun u => g (flip u)) 0 1 p.
Proof.
  intros I.
  assert (X : ex_RInt g 0 1) by (now exists p).
  assert (X1 : ex_RInt g 0 (1 / 2)) by (apply (ex_RInt_Chasles_1 g 0 (1 / 2) 1); [lra | exact X]).
  assert (X2 : ex_RInt g (1 / 2) 1) by (apply (ex_RInt_Chasles_2 g 0 (1 / 2) 1); [lra | exact X]).
  destruct X1 as (a & Ia). destruct X2 as (b & Ib).
  assert (E : p = plus a b) by (apply (filterlim_locally_unique _ _ _ I); exact (is_RInt_Chasles _ _ _ _ _ _ Ia Ib)).
  assert (F : forall l h z, is_RInt g l h z -> is_RInt (fun u => g (1 - u)) (1 - h) (1 - l) z).
  { intros l h z J.
    assert (J' : is_RInt g (-1 * (1 - l) + 1) (-1 * (1 - h) + 1) z)
      by (replace (-1 * (1 - l) + 1) with l by ring; replace (-1 * (1 - h) + 1) with h by ring; exact J).
    pose proof (is_RInt_comp_lin g (-1) 1 (1 - l) (1 - h) z J') as K.
    apply is_RInt_swap in K. pose proof (is_RInt_opp _ _ _ _ K) as K'.
    rewrite opp_opp in K'. apply (is_RInt_ext (fun y => opp (scal (-1) (g (-1 * y + 1)))) (fun u => g (1 - u))); [|exact K'].
    intros u _. unfold opp, scal; cbn. unfold mult; cbn. replace (-1 * u + 1) with (1 - u) by ring. ring. }
  assert (J1 : is_RInt (fun u => g (flip u)) 0 (1 / 2) b).
  { pose proof (F _ _ _ Ib) as K. replace (1 - 1) with 0 in K by ring. replace (1 - 1 / 2) with (1 / 2) in K by lra.
    apply (is_RInt_ext (fun u => g (1 - u))); [|exact K]. rewrite Rmin_left, Rmax_right by lra. intros u Hu. unfold flip.
    destruct (Rlt_dec (1 / 2) u); [lra|]. destruct (Req_EM_T u (1 / 2)); [lra | reflexivity]. }
  assert (J2 : is_RInt (fun u => g (flip u)) (1 / 2) 1 a).
  { pose proof (F _ _ _ Ia) as K. replace (1 - 0) with 1 in K by ring. replace (1 - 1 / 2) with (1 / 2) in K by lra.
    apply (is_RInt_ext (fun u => g (1 - u))); [|exact K]. rewrite Rmin_left, Rmax_right by lra. intros u Hu. unfold flip.
    destruct (Rlt_dec (1 / 2) u); [reflexivity | lra]. }
  rewrite E. replace (plus a b) with (plus b a) by apply plus_comm. exact (is_RInt_Chasles _ _ _ _ _ _ J1 J2).
Qed.

(** Flip the third draw of each group. *)
Fixpoint flip3 (n : nat) (us : list R) : list R :=
  match n with
  | S n' => hd 0 us :: hd 0 (tl us) :: flip (hd 0 (tl (tl us))) :: flip3 n' (tl (tl (tl us)))
  | O => us
  end.
Fixpoint triple (n : nat) : nat := match n with O => O | S n' => S (S (S (triple n'))) end.
Lemma triple_3 n : triple n = (3 * n)%nat.
Proof. induction n; cbn [triple]; lia. Qed.

Lemma mean_flip3 n : forall f p, mean (triple n) f p -> mean (triple n) (fun us => f (flip3 n us)) p.
Proof.
  induction n as [|n IH]; cbn [triple mean]; intros f p M; [exact M|].
  destruct M as (g & Hg & I). exists g. split; [|exact I]. intros s Hs. destruct (Hg s Hs) as (g1 & Hg1 & I1).
  exists g1. split; [|exact I1]. intros r Hr. destruct (Hg1 r Hr) as (g2 & Hg2 & I2).
  exists (fun w => g2 (flip w)). split; [|now apply is_RInt_flip]. intros w Hw. cbn [flip3 hd tl].
  apply (IH (fun us => f (s :: r :: flip w :: us))). apply Hg2. now apply flip_unit.
Qed.

Lemma flip3_draw n : forall us i, (i < n)%nat ->
  in_threes (flip3 n us) 0 i = in_threes us 0 i /\ in_threes (flip3 n us) 1 i = in_threes us 1 i /\
  in_threes (flip3 n us) 2 i = flip (in_threes us 2 i).
Proof.
  induction n as [|n IH]; intros us i Hi; [lia|]. unfold in_threes in *.
  cbn [flip3]. destruct i as [|i].
  - destruct us as [|s [|r [|w us]]]; repeat split.
  - destruct (IH (tl (tl (tl us))) i ltac:(lia)) as (A & B & C).
    replace (3 * S i + 0)%nat with (S (S (S (3 * i + 0)))) by lia. replace (3 * S i + 1)%nat with (S (S (S (3 * i + 1)))) by lia.
    replace (3 * S i + 2)%nat with (S (S (S (3 * i + 2)))) by lia. rewrite !(nth_tl _ us), !(nth_tl _ (tl us)), !(nth_tl _ (tl (tl us))).
    cbn [nth]. auto.
Qed.

(** The loop looks only at the draws of the genes there are. *)
Lemma sbx_draws eps eta skip rand swap skip' rand' swap' xs ys dims : forall i nx ny,
  (forall k, (i <= k < i + length dims)%nat -> skip k = skip' k /\ rand k = rand' k /\ swap k = swap' k) ->
  rsbx_loop eps eta skip rand swap xs ys i dims nx ny = rsbx_loop eps eta skip' rand' swap' xs ys i dims nx ny.
Proof.
  induction dims as [|[lb ub] dims IH]; intros i nx ny H; cbn [rsbx_loop]; [reflexivity|]. cbn [length] in H.
  destruct (H i ltac:(lia)) as (-> & -> & ->).
  assert (K : forall nx ny, rsbx_loop eps eta skip rand swap xs ys (S i) dims nx ny = rsbx_loop eps eta skip' rand' swap' xs ys (S i) dims nx ny)
    by (intros; apply IH; intros k Hk; apply H; lia).
  rewrite !K. destruct (Rlt_dec _ _); [reflexivity|]. destruct (nth_error xs i); [|reflexivity]. destruct (nth_error ys i); [|reflexivity].
  destruct (Rle_dec _ _); [reflexivity|]. cbv zeta. destruct (child_a _ _ _ _ _ _); [|reflexivity]. destruct (child_b _ _ _ _ _ _); [|reflexivity].
  now rewrite !K.
Qed.
Lemma crossover_draws eps eta xs ys dims rate r0 pick skip rand swap skip' rand' swap' :
  (forall k, (k < length dims)%nat -> skip k = skip' k /\ rand k = rand' k /\ swap k = swap' k) ->
  rcrossover eps xs ys dims rate eta r0 pick skip rand swap = rcrossover eps xs ys dims rate eta r0 pick skip' rand' swap'.
Proof.
  intros H. unfold rcrossover. destruct (Rlt_dec _ _); [reflexivity|].
  now rewrite (sbx_draws eps eta skip rand swap skip' rand' swap' xs ys dims 0 xs ys) by (intros k Hk; apply H; lia).
Qed.

(** ---- which parent a gene takes after ---- *)
Fixpoint factors3 (hs : list (R -> R -> R -> R)) (us : list R) : R :=
  match hs with
  | [] => 1
  | h :: hs' => h (hd 0 us) (hd 0 (tl us)) (hd 0 (tl (tl us))) * factors3 hs' (tl (tl (tl us)))
  end.
Definition mean3 (h : R -> R -> R -> R) (p : R) : Prop :=
  exists g, (forall s, 0 < s < 1 -> mean2 (h s) (g s)) /\ is_RInt g 0 1 p.
Lemma mean_factors3 : forall hs ps, Forall2 mean3 hs ps -> mean (triple (length hs)) (factors3 hs) (product ps).
Proof.
  induction 1 as [|h p hs ps (g & Hg & I) F IH]; cbn [length triple mean factors3 product fold_right]; [reflexivity|].
  fold (product ps). exists (fun u => product ps * g u). split.
  - intros s Hs. destruct (Hg s Hs) as (g1 & Hg1 & I1). exists (fun r => product ps * g1 r). split.
    + intros r Hr. exists (fun w => product ps * h s r w). split.
      * intros w Hw. cbn [hd tl]. rewrite (Rmult_comm (product ps)). apply mean_scale. exact IH.
      * exact (is_RInt_scal (h s r) 0 1 (product ps) (g1 r) (Hg1 r Hr)).
    + exact (is_RInt_scal g1 0 1 (product ps) (g s) I1).
  - rewrite (Rmult_comm p). exact (is_RInt_scal g 0 1 (product ps) p I).
Qed.

Definition nearer_dec p q g : {nearer p q g} + {~ nearer p q g} := Rlt_dec _ _.
Lemma nearer_low p q g : p < q -> g < (p + q) / 2 -> nearer p q g.
Proof. intros H G. unfold nearer. unfold Rabs. destruct (Rcase_abs (g - p)), (Rcase_abs (g - q)); lra. Qed.
Lemma nearer_high p q g : q < p -> (p + q) / 2 < g -> nearer p q g.
Proof. intros H G. unfold nearer. unfold Rabs. destruct (Rcase_abs (g - p)), (Rcase_abs (g - q)); lra. Qed.

Lemma law_pos n q : 1 <= q -> 0 < n -> 0 < sbx_law n q.
Proof.
  intros Hq Hn. unfold sbx_law. destruct (Rle_dec q 1).
  - assert (q = 1) by lra. subst. rewrite pw_one. lra.
  - assert (Rpower q (- n) <= 1); [|lra]. rewrite <- (Rpower_O q) by lra. apply Rle_Rpower; lra.
Qed.

Section Inherit.
  Variables eps eta : R.
  Hypothesis He : 0 < eps.
  Hypothesis Ht : 0 <= eta.

  Lemma child_a_below lb y1 y2 r a : lb <= y1 -> y1 < y2 -> 0 < r < 1 -> a <= (y1 + y2) / 2 ->
    child_a eps eta lb y1 y2 r = Some a -> a < (y1 + y2) / 2.
  Proof.
    intros H1 H2 Hr Ha E.
    pose proof (C114_polynomial_law eps eta lb y1 y2 r a He Ht H1 H2 ltac:(red; lra) E) as P. cbv zeta in P.
    destruct (Req_EM_T a ((y1 + y2) / 2)) as [Q|Q]; [|lra]. exfalso.
    replace ((y1 + y2 - 2 * a) / (y2 - y1)) with 0 in P by (rewrite Q; field; lra).
    pose proof (law_pos (eta + 1) (1 + 2 * (y1 - lb) / (y2 - y1 + eps))) as L.
    assert (0 <= 2 * (y1 - lb) / (y2 - y1 + eps)) by (apply Rmult_le_pos; [lra | apply Rlt_le, Rinv_0_lt_compat; lra]).
    specialize (L ltac:(lra) ltac:(lra)).
    unfold sbx_law at 1 in P. destruct (Rle_dec 0 1); [|lra]. rewrite pw_zero in P. nra.
  Qed.
  Lemma child_b_above ub y1 y2 r b : y2 <= ub -> y1 < y2 -> 0 < r < 1 -> (y1 + y2) / 2 <= b ->
    child_b eps eta ub y1 y2 r = Some b -> (y1 + y2) / 2 < b.
  Proof.
    intros H1 H2 Hr Hb E. rewrite child_b_mirror in E.
    destruct (child_a eps eta (- ub) (- y2) (- y1) r) as [c|] eqn:C; [|discriminate]. cbn in E. injection E as <-.
    pose proof (child_a_below (- ub) (- y2) (- y1) r c ltac:(lra) ltac:(lra) Hr ltac:(lra) C). lra.
  Qed.

  Variable pick : bool.
  (** One gene of the child: bounds, chosen parent, other parent. *)
  Definition gout (g : (R * R) * (R * R)) (s r w : R) : R :=
    let '((lb, ub), (p, o)) := g in
    if Rlt_dec (1 / 2) s then p
    else if Bool.eqb pick (if Rlt_dec (1 / 2) w then false else true)
         then match child_a eps eta lb (Rmin p o) (Rmax p o) r with Some z => z | None => 0 end
         else match child_b eps eta ub (Rmin p o) (Rmax p o) r with Some z => z | None => 0 end.

  Definition near_dec (t : bool) p o g :
    {if t then nearer p o g else nearer o p g} + {~ if t then nearer p o g else nearer o p g} :=
    if t return {if t then nearer p o g else nearer o p g} + {~ if t then nearer p o g else nearer o p g}
    then nearer_dec p o g else nearer_dec o p g.
  Definition nhit (gt : ((R * R) * (R * R)) * bool) (s r w : R) : R :=
    if near_dec (snd gt) (fst (snd (fst gt))) (snd (snd (fst gt))) (gout (fst gt) s r w) then 1 else 0.

  Lemma nhit_one t (a : bool) p o g : (if a then nearer p o g else nearer o p g) ->
    (if near_dec t p o g then 1 else 0) = one_if (Bool.eqb t a).
  Proof. intros H. destruct (near_dec t p o g) as [H'|H']; destruct t, a; cbn in *; try reflexivity; exfalso; unfold nearer in *; lra. Qed.

  Lemma nhit_mean lb ub p o t : lb <= p <= ub -> lb <= o <= ub -> eps < Rabs (p - o) ->
    mean3 (nhit (((lb, ub), (p, o)), t)) (if t then 3 / 4 else 1 / 4).
  Proof.
    intros Bp Bo Hd.
    assert (Hne : p <> o) by (intros ->; rewrite Rminus_diag_eq, Rabs_R0 in Hd by reflexivity; lra).
    set (side := if Rlt_dec p o then true else false).
    assert (K : forall s r w, 1 / 2 < s -> nhit (((lb, ub), (p, o)), t) s r w = one_if (Bool.eqb t true)).
    { intros s r w Hs. unfold nhit, gout. cbn [fst snd]. apply nhit_one. destruct (Rlt_dec (1 / 2) s); [|lra].
      unfold nearer. rewrite Rminus_diag_eq, Rabs_R0 by reflexivity. lra. }
    assert (C : forall s r w (v : bool), s <= 1 / 2 -> 0 < r < 1 -> (if v then w < 1 / 2 else 1 / 2 < w) ->
              nhit (((lb, ub), (p, o)), t) s r w = one_if (Bool.eqb t (Bool.eqb side (Bool.eqb pick v)))).
    { intros s r w v Hs Hr Hw. unfold nhit, gout. cbn [fst snd]. apply nhit_one. destruct (Rlt_dec (1 / 2) s); [lra|].
      replace (if Rlt_dec (1 / 2) w then false else true) with v by (destruct v, (Rlt_dec (1 / 2) w); try reflexivity; lra).
      pose proof (C114_crossover eps eta 1 0 true (fun _ => 0) (fun _ => r) (fun _ => 0) [(lb, ub)] [p] [o] He Ht ltac:(intros; red; lra)) as X.
      assert (B1' : in_rbox [(lb, ub)] [p]) by (apply Forall2_cons; [cbn [fst snd]; exact Bp | apply Forall2_nil]).
      assert (B2' : in_rbox [(lb, ub)] [o]) by (apply Forall2_cons; [cbn [fst snd]; exact Bo | apply Forall2_nil]).
      destruct (X B1' B2') as (c & _ & _ & _ & X').
      destruct (X' ltac:(lra) 0%nat lb ub p o eq_refl eq_refl eq_refl) as (g & _ & _ & Y).
      destruct (Y ltac:(lra) Hd) as (lo & hi & EL & EH & B1 & B2 & _).
      assert (M : (Rmin p o + Rmax p o) / 2 = (p + o) / 2).
      { unfold Rmin, Rmax. destruct (Rle_dec p o); lra. }
      assert (MM : Rmin p o < Rmax p o) by (unfold Rmin, Rmax; destruct (Rle_dec p o); lra).
      assert (Lm : lb <= Rmin p o) by (unfold Rmin; destruct (Rle_dec p o); lra).
      assert (Um : Rmax p o <= ub) by (unfold Rmax; destruct (Rle_dec p o); lra).
      pose proof (child_a_below lb _ _ r lo Lm MM Hr ltac:(rewrite M; lra) EL) as SL.
      pose proof (child_b_above ub _ _ r hi Um MM Hr ltac:(rewrite M; lra) EH) as SH. rewrite M in SL, SH.
      unfold side. rewrite EL, EH.
      destruct (Rlt_dec p o) as [H|H]; destruct (Bool.eqb pick v); cbn [Bool.eqb].
      - now apply nearer_low.
      - apply nearer_high; lra.
      - apply nearer_low; lra.
      - apply nearer_high; lra. }
    exists (fun s => if Rlt_dec (1 / 2) s then one_if (Bool.eqb t true) else 1 / 2). split.
    - intros s Hs. destruct (Rlt_dec (1 / 2) s) as [H|H].
      + exists (fun _ => one_if (Bool.eqb t true)).
        split; [intros r Hr|].
        * replace (one_if (Bool.eqb t true)) with (1 / 2 * one_if (Bool.eqb t true) + (1 - 1 / 2) * one_if (Bool.eqb t true)) by lra.
          apply is_RInt_two; [lra | |]; intros w Hw; now apply K.
        * pose proof (is_RInt_const_R 0 1 (one_if (Bool.eqb t true))) as Z. now rewrite Rminus_0_r, Rmult_1_l in Z.
      + exists (fun _ => 1 / 2). split.
        * intros r Hr.
          replace (1 / 2) with (1 / 2 * one_if (Bool.eqb t (Bool.eqb side (Bool.eqb pick true)))
                                + (1 - 1 / 2) * one_if (Bool.eqb t (Bool.eqb side (Bool.eqb pick false))))
            by (destruct t, side, pick; cbn [Bool.eqb one_if]; lra).
          apply is_RInt_two; [lra | |]; intros w Hw; [apply (C s r w true) | apply (C s r w false)]; lra.
        * pose proof (is_RInt_const_R 0 1 (1 / 2)) as Z. now replace ((1 - 0) * (1 / 2)) with (1 / 2) in Z by lra.
    - replace (if t then 3 / 4 else 1 / 4) with (1 / 2 * (1 / 2) + (1 - 1 / 2) * one_if (Bool.eqb t true))
        by (destruct t; cbn [Bool.eqb one_if]; lra).
      apply is_RInt_two; [lra | |]; intros s Hs; destruct (Rlt_dec (1 / 2) s); try lra; reflexivity.
  Qed.

  Fixpoint gouts (gs : list ((R * R) * (R * R))) (us : list R) : list R :=
    match gs with
    | [] => []
    | g :: gs' => gout g (hd 0 us) (hd 0 (tl us)) (hd 0 (tl (tl us))) :: gouts gs' (tl (tl (tl us)))
    end.
  Lemma gouts_nth gs : forall us i,
    nth_error (gouts gs us) i =
    match nth_error gs i with Some g => Some (gout g (in_threes us 0 i) (in_threes us 1 i) (in_threes us 2 i)) | None => None end.
  Proof.
    induction gs as [|g gs IH]; intros us [|i]; cbn [gouts nth_error]; try reflexivity.
    - destruct us as [|u [|v [|w us]]]; reflexivity.
    - rewrite IH. destruct (nth_error gs i); [|reflexivity]. unfold in_threes. do 2 f_equal.
      + replace (3 * S i + 0)%nat with (S (S (S (3 * i + 0)))) by lia. now rewrite !nth_tl.
      + replace (3 * S i + 1)%nat with (S (S (S (3 * i + 1)))) by lia. now rewrite !nth_tl.
      + replace (3 * S i + 2)%nat with (S (S (S (3 * i + 2)))) by lia. now rewrite !nth_tl.
  Qed.
  Lemma gouts_length gs : forall us, length (gouts gs us) = length gs.
  Proof. induction gs as [|g gs IH]; intros us; cbn; [reflexivity | now rewrite IH]. Qed.

  Lemma rcrossover_gouts dims xs ys us rate r0 : in_rbox dims xs -> in_rbox dims ys -> Forall2 (fun x y => eps < Rabs (x - y)) xs ys ->
    r0 <= rate -> List.Forall (fun u => 0 < u < 1) us ->
    rcrossover eps xs ys dims rate eta r0 pick (in_threes us 0) (in_threes us 1) (in_threes us 2) =
    Some (gouts (combine dims (if pick then combine xs ys else combine ys xs)) us).
  Proof.
    intros B1 B2 D Hr F.
    assert (N : forall k j, unit_draw (in_threes us k j)).
    { intros k j. unfold in_threes. red. destruct (Nat.lt_ge_cases (3 * j + k) (length us)) as [H|H].
      - rewrite Forall_forall in F. pose proof (F _ (nth_In us 0 H)). lra.
      - rewrite nth_overflow by exact H. lra. }
    destruct (C114_crossover eps eta rate r0 pick (in_threes us 0) (in_threes us 1) (in_threes us 2) dims xs ys He Ht (N 1%nat) B1 B2)
      as (c & E & B' & _ & J).
    rewrite E. f_equal. symmetry. destruct (in_rbox_nth _ _ B1) as [Lx _]. destruct (in_rbox_nth _ _ B2) as [Ly _]. destruct (in_rbox_nth _ _ B') as [Lc _].
    apply nth_ext_error.
    - rewrite gouts_length. destruct pick; rewrite !combine_length; lia.
    - intros i a Ha. rewrite gouts_nth, combine_nth_error in Ha.
      destruct (nth_error dims i) as [[lb ub]|] eqn:Ed; [|discriminate].
      destruct (nth_error xs i) as [x|] eqn:Ex; [|destruct pick; rewrite combine_nth_error, Ex in Ha; [discriminate | destruct (nth_error ys i); discriminate]].
      destruct (nth_error ys i) as [y|] eqn:Ey; [|destruct pick; rewrite combine_nth_error, Ey in Ha; [rewrite Ex in Ha|]; discriminate].
      assert (Hxy : eps < Rabs (x - y)).
      { clear -D Ex Ey. revert i Ex Ey. induction D as [|x' y' xs ys H D IH]; intros [|i] Ex Ey; cbn in Ex, Ey; try discriminate.
        - congruence.
        - exact (IH i Ex Ey). }
      destruct (J Hr i lb ub x y Ed Ex Ey) as (g & Eg & J1 & J2). rewrite Eg. f_equal.
      assert (G : a = gout ((lb, ub), (if pick then x else y, if pick then y else x)) (in_threes us 0 i) (in_threes us 1 i) (in_threes us 2 i)).
      { destruct pick; rewrite combine_nth_error, Ex, Ey in Ha; now apply (f_equal (fun o => match o with Some z => z | None => a end)) in Ha. }
      rewrite G. unfold gout. destruct (Rlt_dec (1 / 2) (in_threes us 0 i)) as [H|H]; [exact (J1 (or_introl H))|].
      destruct (J2 (Rnot_lt_le _ _ H) Hxy) as (lo & hi & EL & EH & _ & _ & _ & W1 & W2).
      replace (Rmin (if pick then x else y) (if pick then y else x)) with (Rmin x y) by (destruct pick; [reflexivity | apply Rmin_comm]).
      replace (Rmax (if pick then x else y) (if pick then y else x)) with (Rmax x y) by (destruct pick; [reflexivity | apply Rmax_comm]).
      rewrite EL, EH. destruct (Rlt_dec (1 / 2) (in_threes us 2 i)) as [W|W]; [rewrite (W2 W) | rewrite (W1 (Rnot_lt_le _ _ W))]; now destruct pick.
  Qed.

  Definition takes_after_dec pattern ps os c : {takes_after pattern ps os c} + {~ takes_after pattern ps os c}.
  Proof.
    unfold takes_after. revert c. induction (combine pattern (combine ps os)) as [|tp l IH]; intros [|y c].
    - left. constructor.
    - right. intros H. inversion H.
    - right. intros H. inversion H.
    - destruct (near_dec (fst tp) (fst (snd tp)) (snd (snd tp)) y) as [H|H]; [destruct (IH c) as [H'|H']|].
      + left. now constructor.
      + right. intros G. inversion G. contradiction.
      + right. intros G. inversion G. contradiction.
  Defined.

  Lemma factors3_nhit : forall dims ps os pattern us, length ps = length dims -> length os = length dims -> length pattern = length dims ->
    factors3 (map nhit (combine (combine dims (combine ps os)) pattern)) us =
    if takes_after_dec pattern ps os (gouts (combine dims (combine ps os)) us) then 1 else 0.
  Proof.
    induction dims as [|d dims IH]; intros [|x ps] [|o os] [|t pattern] us L1 L2 L3; try discriminate; cbn [combine map factors3 gouts].
    - destruct (takes_after_dec _ _ _ _) as [H|H]; [reflexivity|]. exfalso. apply H. constructor.
    - injection L1 as L1. injection L2 as L2. injection L3 as L3. rewrite (IH ps os pattern (tl (tl (tl us))) L1 L2 L3).
      unfold nhit. cbn [fst snd].
      destruct (near_dec t x o _) as [H|H], (takes_after_dec pattern ps os _) as [H'|H'], (takes_after_dec (t :: pattern) (x :: ps) (o :: os) _) as [G|G];
        try ring; exfalso.
      + apply G. now constructor.
      + inversion G; subst. contradiction.
      + inversion G; subst. contradiction.
      + inversion G; subst. contradiction.
  Qed.
End Inherit.
