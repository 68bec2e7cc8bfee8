(** Property theorems C113-C115: the formulas of the variation operators, over the reals. *)
From Coq Require Import Reals List Lra Lia.
From Verif Require Import OpModel OpSpec OpProofs OpProofs2.
Import ListNotations.
Local Open Scope R_scope.

(** C113 - mutate on a vector inside the box; [sel i] and [rnd i] are the two draws for gene i. *)
Theorem C113_mutation :
  forall eps eta rate (sel rnd : nat -> R) dims xs,
    0 < eps -> 0 <= eta -> (forall i, unit_draw (rnd i)) -> in_rbox dims xs ->
    exists ys, rmutate eps xs dims rate eta sel rnd = Some ys /\ in_rbox dims ys /\
      forall i lb ub x, nth_error dims i = Some (lb, ub) -> nth_error xs i = Some x ->
        exists y, nth_error ys i = Some y /\
          (rate < sel i -> y = x) /\
          (sel i <= rate ->
             perturbed eps eta lb ub x (rnd i) = Some y /\
             (rnd i <= 1 / 2 -> lb <= y <= x) /\ (1 / 2 <= rnd i -> x <= y <= ub)).
Proof.
  intros eps eta rate sel rnd dims xs He Ht Hr B.
  destruct (rmutate_ok eps eta rate sel rnd He Ht Hr dims xs B) as (ys & E & B' & J).
  exists ys. split; [exact E|]. split; [exact B'|]. intros i lb ub x Ed Ex.
  destruct (J i _ x Ed Ex) as (y & Ey & J1 & J2). exists y. split; [exact Ey|]. split; [exact J1|].
  intros Hs. specialize (J2 Hs). cbn in J2. split; [exact J2|].
  destruct (in_rbox_nth _ _ B) as [_ N]. destruct (N i _ Ed) as (x' & Ex' & Bx). cbn in Bx.
  assert (x' = x) by congruence. subst x'.
  destruct (perturbed_in_bounds eps eta lb ub x (rnd i) He Ht Bx (Hr i)) as (z & Ez & Bz & Z1 & Z2).
  assert (z = y) by congruence. subst z. split; intros H; [specialize (Z1 H)|specialize (Z2 H)]; lra.
Qed.
Print Assumptions C113_mutation.

(** A larger draw never gives a smaller gene. *)
Theorem C113_larger_draw :
  forall eps eta rate (sel rnd rnd' : nat -> R) dims xs ys ys',
    0 < eps -> 0 <= eta -> (forall i, unit_draw (rnd i)) -> (forall i, unit_draw (rnd' i)) -> in_rbox dims xs ->
    (forall i, rnd i <= rnd' i) ->
    rmutate eps xs dims rate eta sel rnd = Some ys -> rmutate eps xs dims rate eta sel rnd' = Some ys' ->
    forall i y y', nth_error ys i = Some y -> nth_error ys' i = Some y' -> y <= y'.
Proof.
  intros eps eta rate sel rnd rnd' dims xs ys ys' He Ht Hr Hr' B L E E' i y y' Ey Ey'.
  destruct (rmutate_ok eps eta rate sel rnd He Ht Hr dims xs B) as (zs & F & Bz & J).
  destruct (rmutate_ok eps eta rate sel rnd' He Ht Hr' dims xs B) as (zs' & F' & _ & J').
  assert (zs = ys) by congruence. assert (zs' = ys') by congruence. subst zs zs'.
  destruct (in_rbox_nth _ _ B) as [_ N]. destruct (in_rbox_nth _ _ Bz) as [Ly _].
  destruct (nth_error dims i) as [[lb ub]|] eqn:Ed.
  2:{ apply nth_error_None in Ed. assert (i < length ys)%nat by (apply nth_error_Some; congruence). lia. }
  destruct (N i _ Ed) as (x & Ex & Bx). cbn in Bx.
  destruct (J i _ x Ed Ex) as (z & Z & Z1 & Z2). destruct (J' i _ x Ed Ex) as (z' & Z' & Z1' & Z2').
  assert (z = y) by congruence. assert (z' = y') by congruence. subst z z'.
  destruct (Rlt_dec rate (sel i)) as [S|S]; [rewrite (Z1 S), (Z1' S); lra|].
  exact (perturbed_monotone eps eta lb ub x _ _ y y' He Ht Bx (Hr i) (Hr' i) (L i) (Z2 ltac:(lra)) (Z2' ltac:(lra))).
Qed.
Print Assumptions C113_larger_draw.

(** The extreme draws reach the bounds up to EPSILON, so every point of the box can be reached. *)
Theorem C113_extreme_draws :
  forall eps eta lb ub y, 0 < eps -> 0 <= eta -> lb <= y <= ub ->
    (exists a, rmutate eps [y] [(lb, ub)] 1 eta (fun _ => 0) (fun _ => 0) = Some [a] /\ lb <= a <= lb + eps) /\
    (exists b, rmutate eps [y] [(lb, ub)] 1 eta (fun _ => 0) (fun _ => 1) = Some [b] /\ ub - eps <= b <= ub) /\
    rmutate eps [y] [(lb, ub)] 1 eta (fun _ => 0) (fun _ => 1 / 2) = Some [y].
Proof.
  intros eps eta lb ub y He Ht Hy. destruct (perturbed_reach eps eta lb ub y He Ht Hy) as [(a & A & Ba) (b & Eb & Bb)].
  unfold rmutate. cbn [rmutate_loop nth_error put]. destruct (Rlt_dec 1 0); [lra|]. rewrite A, Eb.
  assert (lb <= ub - eps \/ ub - eps < lb) by lra.
  assert (B : in_rbox [(lb, ub)] [y]) by (constructor; [exact Hy|constructor]).
  destruct (perturbed_in_bounds eps eta lb ub y 0 He Ht Hy ltac:(red; lra)) as (a' & A' & Ba' & _).
  destruct (perturbed_in_bounds eps eta lb ub y 1 He Ht Hy ltac:(red; lra)) as (b' & B' & Bb' & _).
  destruct (perturbed_in_bounds eps eta lb ub y (1 / 2) He Ht Hy ltac:(red; lra)) as (c & C & Bc & C1 & C2).
  rewrite C. assert (a' = a) by congruence. assert (b' = b) by congruence. subst a' b'.
  rewrite !clamp_id by assumption.
  split; [exists a; auto|]. split; [exists b; auto|]. f_equal. f_equal.
  specialize (C1 ltac:(lra)). specialize (C2 ltac:(lra)). lra.
Qed.
Print Assumptions C113_extreme_draws.

(** A larger mutation_eta never moves a gene further for the same draws. *)
Theorem C113_larger_eta :
  forall eps eta eta' rate (sel rnd : nat -> R) dims xs ys ys',
    0 < eps -> 0 <= eta <= eta' -> (forall i, unit_draw (rnd i)) -> in_rbox dims xs ->
    rmutate eps xs dims rate eta sel rnd = Some ys -> rmutate eps xs dims rate eta' sel rnd = Some ys' ->
    forall i x y y', nth_error xs i = Some x -> nth_error ys i = Some y -> nth_error ys' i = Some y' ->
      Rabs (y' - x) <= Rabs (y - x).
Proof.
  intros eps eta eta' rate sel rnd dims xs ys ys' He Ht Hr B E E' i x y y' Ex Ey Ey'.
  assert (Ht1 : 0 <= eta') by lra.
  destruct (rmutate_ok eps eta rate sel rnd He (proj1 Ht) Hr dims xs B) as (zs & F & Bz & J).
  destruct (rmutate_ok eps eta' rate sel rnd He Ht1 Hr dims xs B) as (zs' & F' & _ & J').
  assert (zs = ys) by congruence. assert (zs' = ys') by congruence. subst zs zs'.
  destruct (in_rbox_nth _ _ B) as [_ N]. destruct (in_rbox_nth _ _ Bz) as [Ly _].
  destruct (nth_error dims i) as [[lb ub]|] eqn:Ed.
  2:{ apply nth_error_None in Ed. assert (i < length ys)%nat by (apply nth_error_Some; congruence). lia. }
  destruct (N i _ Ed) as (x1 & Ex1 & Bx). cbn in Bx. assert (x1 = x) by congruence. subst x1.
  destruct (J i _ x Ed Ex) as (z & Z & Z1 & Z2). destruct (J' i _ x Ed Ex) as (z' & Z' & Z1' & Z2').
  assert (z = y) by congruence. assert (z' = y') by congruence. subst z z'.
  destruct (Rlt_dec rate (sel i)) as [S|S]; [rewrite (Z1 S), (Z1' S); lra|].
  exact (perturbed_eta eps eta eta' lb ub x _ y y' He Ht Bx (Hr i) (Z2 ltac:(lra)) (Z2' ltac:(lra))).
Qed.
Print Assumptions C113_larger_eta.

(** No direction is preferred: on the mirrored problem the mirrored draw gives the mirrored gene. *)
Theorem C113_mirror :
  forall eps eta rate (sel rnd : nat -> R) dims xs ys ys',
    0 < eps -> 0 <= eta -> (forall i, unit_draw (rnd i)) -> in_rbox dims xs ->
    rmutate eps xs dims rate eta sel rnd = Some ys ->
    rmutate eps (map Ropp xs) (map (fun d => (- snd d, - fst d)) dims) rate eta sel (fun i => 1 - rnd i) = Some ys' ->
    forall i y y', nth_error ys i = Some y -> nth_error ys' i = Some y' -> y' = - y.
Proof.
  intros eps eta rate sel rnd dims xs ys ys' He Ht Hr B E E' i y y' Ey Ey'.
  assert (Hr' : forall i, unit_draw (1 - rnd i)). { intros k. specialize (Hr k). red in Hr |- *. lra. }
  assert (B' : in_rbox (map (fun d => (- snd d, - fst d)) dims) (map Ropp xs)).
  { clear - B. induction B; cbn; constructor; [cbn in *; lra|exact IHB]. }
  destruct (rmutate_ok eps eta rate sel rnd He Ht Hr dims xs B) as (zs & F & Bz & J).
  destruct (rmutate_ok eps eta rate sel (fun i => 1 - rnd i) He Ht Hr' _ _ B') as (zs' & F' & _ & J').
  assert (zs = ys) by congruence. assert (zs' = ys') by congruence. subst zs zs'.
  destruct (in_rbox_nth _ _ B) as [_ N]. destruct (in_rbox_nth _ _ Bz) as [Ly _].
  destruct (nth_error dims i) as [[lb ub]|] eqn:Ed.
  2:{ apply nth_error_None in Ed. assert (i < length ys)%nat by (apply nth_error_Some; congruence). lia. }
  destruct (N i _ Ed) as (x & Ex & Bx). cbn in Bx.
  destruct (J i _ x Ed Ex) as (z & Z & Z1 & Z2).
  destruct (J' i (- ub, - lb) (- x)) as (z' & Z' & Z1' & Z2').
  { rewrite nth_error_map, Ed. reflexivity. } { rewrite nth_error_map, Ex. reflexivity. }
  assert (z = y) by congruence. assert (z' = y') by congruence. subst z z'. cbn in Z2, Z2'.
  destruct (Rlt_dec rate (sel i)) as [S|S]; [rewrite (Z1 S), (Z1' S); reflexivity|].
  specialize (Z2 ltac:(lra)). specialize (Z2' ltac:(lra)).
  rewrite perturbed_mirror, Z2 in Z2' by (try assumption; apply Hr). cbn in Z2'. congruence.
Qed.
Print Assumptions C113_mirror.

(** The landing point follows the polynomial distribution with exponent eta, truncated to the
    bounds: for a draw of at most 1/2 the power n of the remaining share interpolates between the
    power of the share left when the gene goes to its lower bound and 1. *)
Theorem C113_polynomial_law :
  forall eps eta lb ub y rnd y', 0 < eps -> 0 <= eta -> lb < ub -> lb <= y <= ub -> unit_draw rnd ->
    rmutate eps [y] [(lb, ub)] 1 eta (fun _ => 0) (fun _ => rnd) = Some [y'] ->
    let n := eta + 1 in
    let move := (y' - y) / (ub - lb) in
    let down := (ub - y + eps) / (ub - lb + eps) in
    let up := (y - lb + eps) / (ub - lb + eps) in
    (rnd <= 1 / 2 -> pw (1 + move) n = 2 * rnd + (1 - 2 * rnd) * pw down n) /\
    (1 / 2 < rnd -> pw (1 - move) n = 2 * (1 - rnd) + (1 - 2 * (1 - rnd)) * pw up n).
Proof.
  intros eps eta lb ub y rnd y' He Ht Hb Hy Hr E.
  assert (B : in_rbox [(lb, ub)] [y]) by (constructor; [exact Hy|constructor]).
  destruct (rmutate_ok eps eta 1 (fun _ => 0) (fun _ => rnd) He Ht (fun _ => Hr) _ _ B) as (ys & F & _ & J).
  destruct (J O _ y eq_refl eq_refl) as (z & Z & _ & Z2). assert (ys = [y']) by congruence. subst ys.
  cbn in Z. assert (z = y') by congruence. subst z. specialize (Z2 ltac:(lra)).
  exact (perturbed_law eps eta lb ub y rnd y' He Ht Hb Hy Hr Z2).
Qed.
Print Assumptions C113_polynomial_law.

Example C113_example :
  in_rbox [(0, 1); (0, 1)] [1 / 2; 1 / 3] /\
  rmutate 1 [1 / 2; 1 / 3] [(0, 1); (0, 1)] (1 / 10) 0 (fun i => match i with O => 0 | _ => 1 end) (fun _ => 1 / 4)
  = Some [3 / 8; 1 / 3].
Proof.
  split; [repeat constructor; cbn; lra|].
  unfold rmutate. cbn [rmutate_loop nth_error].
  destruct (Rlt_dec (1 / 10) 0); [lra|]. destruct (Rlt_dec (1 / 10) 1); [|lra].
  rewrite perturbed_value by (try red; lra). destruct (Rle_dec (1 / 4) (1 / 2)); [|lra].
  unfold shrink, room. replace (0 + 1) with 1 by ring. replace (1 / 1) with 1 by field.
  rewrite (pw_1r ((1 - 1 / 2 + 1) / (1 - 0 + 1))) by lra. rewrite pw_1r by lra.
  replace (1 / 2 - _) with (3 / 8) by field. rewrite clamp_id by lra. reflexivity.
Qed.

(** C114 - crossover of parents inside the box; [skip i], [rand i], [swap i] are the draws for
    gene i.  [lo] and [hi] are the two children's genes. *)
Theorem C114_crossover :
  forall eps eta crossover_rate r0 pick (skip rand swap : nat -> R) dims xs ys,
    0 < eps -> 0 <= eta -> (forall i, unit_draw (rand i)) -> in_rbox dims xs -> in_rbox dims ys ->
    exists c, rcrossover eps xs ys dims crossover_rate eta r0 pick skip rand swap = Some c /\ in_rbox dims c /\
      (crossover_rate < r0 -> c = if pick then xs else ys) /\
      (r0 <= crossover_rate ->
       forall i lb ub x y, nth_error dims i = Some (lb, ub) -> nth_error xs i = Some x -> nth_error ys i = Some y ->
         exists g, nth_error c i = Some g /\
           (1 / 2 < skip i \/ Rabs (x - y) <= eps -> g = if pick then x else y) /\
           (skip i <= 1 / 2 -> eps < Rabs (x - y) ->
              exists lo hi,
                child_a eps eta lb (Rmin x y) (Rmax x y) (rand i) = Some lo /\
                child_b eps eta ub (Rmin x y) (Rmax x y) (rand i) = Some hi /\
                lb <= lo <= (x + y) / 2 /\ (x + y) / 2 <= hi <= ub /\
                (rand i <= 1 / 2 -> between x y lo /\ between x y hi) /\
                (swap i <= 1 / 2 -> g = if pick then lo else hi) /\
                (1 / 2 < swap i -> g = if pick then hi else lo))).
Proof.
  intros eps eta rate r0 pick skip rand swap dims xs ys He Ht Hr Bx By. unfold rcrossover.
  destruct (rsbx_ok eps eta skip rand swap He Ht Hr dims xs ys Bx By) as (ca & cb & -> & Ba & Bb & J).
  destruct (Rlt_dec rate r0) as [H|H].
  - eexists. split; [reflexivity|]. split; [destruct pick; assumption|]. split; [reflexivity|]. intros; lra.
  - eexists. split; [reflexivity|]. cbn [fst snd]. split; [destruct pick; assumption|]. split; [intros; lra|].
    intros _ i lb ub x y Ed Ex Ey. destruct (J i _ x y Ed Ex Ey) as (a & b & Ea & Eb & R).
    exists (if pick then a else b). split; [destruct pick; assumption|].
    destruct R as [(S & -> & ->)|(S & D & lo & hi & C1 & C2 & B1 & B2 & M & W)].
    + split; [reflexivity|]. intros S' D'. lra.
    + cbn in C1, C2, B1, B2. split; [intros; lra|]. intros _ _. exists lo, hi.
      split; [exact C1|]. split; [exact C2|]. split; [exact B1|]. split; [exact B2|]. split.
      * intros H5. destruct (M H5) as [M1 M2].
        assert (MM : Rmin x y <= (x + y) / 2 <= Rmax x y). { unfold Rmin, Rmax. destruct (Rle_dec x y); lra. }
        unfold between. split; lra.
      * destruct W as [(W & -> & ->)|(W & -> & ->)]; split; intros; try lra; destruct pick; reflexivity.
Qed.
Print Assumptions C114_crossover.

(** The larger the draw, the further the children lie from the midpoint. *)
Theorem C114_larger_draw :
  forall eps eta lb ub y1 y2 r r' a a' b b',
    0 < eps -> 0 <= eta -> lb <= y1 -> y1 < y2 -> y2 <= ub -> unit_draw r -> unit_draw r' -> r <= r' ->
    child_a eps eta lb y1 y2 r = Some a -> child_a eps eta lb y1 y2 r' = Some a' ->
    child_b eps eta ub y1 y2 r = Some b -> child_b eps eta ub y1 y2 r' = Some b' ->
    a' <= a /\ b <= b'.
Proof.
  intros eps eta lb ub y1 y2 r r' a a' b b' He Ht H1 H2 H3 Hr Hr' L A A' Bb Bb'. split.
  - exact (child_a_monotone eps eta lb y1 y2 r r' a a' He Ht H1 H2 Hr Hr' L A A').
  - rewrite child_b_mirror in Bb, Bb'.
    destruct (child_a eps eta (- ub) (- y2) (- y1) r) as [c|] eqn:C; [|discriminate].
    destruct (child_a eps eta (- ub) (- y2) (- y1) r') as [c'|] eqn:C'; [|discriminate].
    pose proof (child_a_monotone eps eta (- ub) (- y2) (- y1) r r' c c' He Ht ltac:(lra) ltac:(lra) Hr Hr' L C C').
    cbn in Bb, Bb'. injection Bb as <-. injection Bb' as <-. lra.
Qed.
Print Assumptions C114_larger_draw.

(** The distance of the low child from the midpoint, relative to the parents', follows the
    polynomial distribution truncated where the child would leave the box (C114_mirror carries this
    over to the high child). *)
Theorem C114_polynomial_law :
  forall eps eta lb y1 y2 rand a, 0 < eps -> 0 <= eta -> lb <= y1 -> y1 < y2 -> unit_draw rand ->
    child_a eps eta lb y1 y2 rand = Some a ->
    let q := (y1 + y2 - 2 * a) / (y2 - y1) in
    let beta := 1 + 2 * (y1 - lb) / (y2 - y1 + eps) in
    sbx_law (eta + 1) q = rand * sbx_law (eta + 1) beta.
Proof. exact child_a_law. Qed.
Print Assumptions C114_polynomial_law.

(** No direction is preferred: mirrored parents in the mirrored box have mirrored children. *)
Theorem C114_mirror :
  forall eps eta lb ub y1 y2 rand,
    child_b eps eta ub y1 y2 rand = option_map Ropp (child_a eps eta (- ub) (- y2) (- y1) rand) /\
    child_a eps eta lb y1 y2 rand = option_map Ropp (child_b eps eta (- lb) (- y2) (- y1) rand).
Proof.
  intros. split; [apply child_b_mirror|]. rewrite child_b_mirror. rewrite !Ropp_involutive.
  destruct (child_a eps eta lb y1 y2 rand); [|reflexivity]. cbn. rewrite Ropp_involutive. reflexivity.
Qed.
Print Assumptions C114_mirror.

(** A concrete crossover: parents 1 and 3 in [0,4], draw 1/2, eta 0, EPSILON 1. *)
Example C114_example :
  in_rbox [(0, 4)] [1] /\ in_rbox [(0, 4)] [3] /\
  child_a 1 0 0 1 3 (1 / 2) = Some (13 / 10) /\
  rcrossover 1 [1] [3] [(0, 4)] 1 0 0 true (fun _ => 0) (fun _ => 1 / 2) (fun _ => 1) = Some [27 / 10].
Proof.
  split; [repeat constructor; cbn; lra|]. split; [repeat constructor; cbn; lra|].
  assert (A : child_a 1 0 0 1 3 (1 / 2) = Some (13 / 10)).
  { unfold child_a. rewrite py_div_ok by lra. rewrite py_pow_pos by lra.
    replace (1 + 2 * (1 - 0) / (3 - 1 + 1)) with (5 / 3) by field.
    rewrite Rpower_Ropp. replace (0 + 1) with 1 by ring. rewrite Rpower_1 by lra.
    replace (2 - / (5 / 3)) with (7 / 5) by field.
    unfold get_beta_q. rewrite !py_div_ok by lra. destruct (Rle_dec (1 / 2) (1 / (7 / 5))) as [H|H].
    - rewrite py_pow_pw by (try apply Rdiv_lt_0_compat; lra). replace (1 / (0 + 1)) with 1 by field.
      rewrite pw_1r by lra. f_equal. field.
    - exfalso. apply H. replace (1 / (7 / 5)) with (5 / 7) by field. lra. }
  split; [exact A|].
  unfold rcrossover. destruct (Rlt_dec 1 0); [lra|]. cbn [rsbx_loop nth_error put].
  destruct (Rlt_dec (1 / 2) 0); [lra|]. destruct (Rlt_dec (1 / 2) 1); [|lra].
  destruct (Rle_dec (Rabs (1 - 3)) 1) as [H|_].
  { exfalso. rewrite Rabs_left in H by lra. lra. }
  rewrite Rmin_left, Rmax_right by lra. rewrite A.
  assert (Bc : child_b 1 0 4 1 3 (1 / 2) = Some (27 / 10)).
  { unfold child_b. rewrite py_div_ok by lra. rewrite py_pow_pos by lra.
    replace (1 + 2 * (4 - 3) / (3 - 1 + 1)) with (5 / 3) by field.
    rewrite Rpower_Ropp. replace (0 + 1) with 1 by ring. rewrite Rpower_1 by lra.
    replace (2 - / (5 / 3)) with (7 / 5) by field.
    unfold get_beta_q. rewrite !py_div_ok by lra. destruct (Rle_dec (1 / 2) (1 / (7 / 5))) as [H|H].
    - rewrite py_pow_pw by (try apply Rdiv_lt_0_compat; lra). replace (1 / (0 + 1)) with 1 by field.
      rewrite pw_1r by lra. f_equal. field.
    - exfalso. apply H. replace (1 / (7 / 5)) with (5 / 7) by field. lra. }
  rewrite Bc. rewrite !clamp_id by lra. reflexivity.
Qed.

(** C115 - NonUniformMutation called on a particle inside the box; [progress] is cost / budget. *)
Theorem C115_non_uniform_mutation :
  forall progress perturbation (touch up : nat -> bool) (rand : nat -> R) dims value,
    0 <= progress <= 1 -> 0 < perturbation -> (forall i, unit_draw (rand i)) -> in_rbox dims value ->
    exists vs, non_uniform_call progress perturbation touch up rand 0 dims value = Some vs /\ in_rbox dims vs /\
      forall i lb ub x, nth_error dims i = Some (lb, ub) -> nth_error value i = Some x ->
        exists y, nth_error vs i = Some y /\
          (touch i = false -> y = x) /\
          (touch i = true -> up i = true -> x <= y <= ub) /\
          (touch i = true -> up i = false -> lb <= y <= x) /\
          (progress = 1 -> y = x).
Proof.
  intros g b touch up rand dims value Hg Hb Hr B.
  destruct (non_uniform_call_ok g b touch up rand Hg Hb Hr dims value 0 B) as (vs & E & Bv & J).
  exists vs. split; [exact E|]. split; [exact Bv|]. intros i lb ub x Ed Ex.
  destruct (J i _ x Ed Ex) as (y & Ey & J1 & J2). cbn [Nat.add fst snd] in J1, J2. exists y. split; [exact Ey|].
  split; [exact J1|].
  destruct (in_rbox_nth _ _ B) as [_ N]. destruct (N i _ Ed) as (x' & Ex' & Bx). cbn in Bx.
  assert (x' = x) by congruence. subst x'.
  destruct (non_uniform_gene g b lb ub (up i) (rand i) x Hg Hb (Hr i) Bx) as (m & Em & Bm & Sm & Om).
  split; [|split].
  - intros H U. destruct (J2 H) as (m' & Em' & ->). assert (m' = m) by congruence. subst m'. rewrite U in Sm. lra.
  - intros H U. destruct (J2 H) as (m' & Em' & ->). assert (m' = m) by congruence. subst m'. rewrite U in Sm. lra.
  - intros H. destruct (touch i); [|apply J1; reflexivity].
    destruct J2 as (m' & Em' & ->); [reflexivity|]. assert (m' = m) by congruence. subst m'. rewrite Om by exact H. ring.
Qed.
Print Assumptions C115_non_uniform_mutation.

(** The same draws move a particle less the further the run has progressed. *)
Theorem C115_cools_down :
  forall g g' perturbation (touch up : nat -> bool) (rand : nat -> R) dims value vs vs',
    0 <= g <= g' -> g' <= 1 -> 0 < perturbation -> (forall i, unit_draw (rand i)) -> in_rbox dims value ->
    non_uniform_call g perturbation touch up rand 0 dims value = Some vs ->
    non_uniform_call g' perturbation touch up rand 0 dims value = Some vs' ->
    forall i x y y', nth_error value i = Some x -> nth_error vs i = Some y -> nth_error vs' i = Some y' ->
      Rabs (y' - x) <= Rabs (y - x).
Proof.
  intros g g' b touch up rand dims value vs vs' Hg Hg' Hb Hr B E E' i x y y' Ex Ey Ey'.
  destruct (non_uniform_call_ok g b touch up rand ltac:(lra) Hb Hr dims value 0 B) as (zs & F & Bz & J).
  destruct (non_uniform_call_ok g' b touch up rand ltac:(lra) Hb Hr dims value 0 B) as (zs' & F' & _ & J').
  assert (zs = vs) by congruence. assert (zs' = vs') by congruence. subst zs zs'.
  destruct (in_rbox_nth _ _ Bz) as [Ly _].
  destruct (nth_error dims i) as [[lb ub]|] eqn:Ed.
  2:{ apply nth_error_None in Ed. assert (i < length vs)%nat by (apply nth_error_Some; congruence). lia. }
  destruct (J i _ x Ed Ex) as (z & Z & Z1 & Z2). destruct (J' i _ x Ed Ex) as (z' & Z' & Z1' & Z2').
  assert (z = y) by congruence. assert (z' = y') by congruence. subst z z'. cbn [Nat.add fst snd] in *.
  destruct (touch i); [|rewrite Z1, Z1' by reflexivity; lra].
  destruct Z2 as (m & Em & ->); [reflexivity|]. destruct Z2' as (m' & Em' & ->); [reflexivity|].
  replace (x + m' - x) with m' by ring. replace (x + m - x) with m by ring.
  unfold non_uniform_mutation in Em, Em'. destruct (up i).
  - exact (non_uniform_cools g g' b _ _ m m' Hg Hg' Hb (Hr i) Em Em').
  - exact (non_uniform_cools g g' b _ _ m m' Hg Hg' Hb (Hr i) Em Em').
Qed.
Print Assumptions C115_cools_down.

Example C115_example :
  in_rbox [(0, 4); (0, 4)] [1; 2] /\
  non_uniform_call 0 1 (fun _ => true) (fun i => match i with O => true | _ => false end) (fun _ => 1 / 2) 0
    [(0, 4); (0, 4)] [1; 2] = Some [5 / 2; 1].
Proof.
  split; [repeat constructor; cbn; lra|].
  unfold non_uniform_call, non_uniform_mutation, non_uniform_delta.
  rewrite !(py_pow_pw (1 - 0)) by lra. replace (1 - 0) with 1 by ring. rewrite pw_one.
  rewrite !py_pow_pw by lra. rewrite !pw_1r by lra.
  rewrite !Rmax_left by lra. rewrite !Rmin_left by lra. f_equal. f_equal; [field|]. f_equal. field.
Qed.
