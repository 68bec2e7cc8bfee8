(** Property theorems C136-C139: the variation operators in floating-point arithmetic. *)
From Coq Require Import Reals List Lra Lia.
From Flocq Require Import Core.
From Verif Require Import OpModel OpSpec RndModel RndSpec RndProofs RndIeee.
Import ListNotations.
Local Open Scope R_scope.

(** C136 - mutate on a vector of numbers inside the box, every operation rounded: no exception, complex number
    or nan; the result is inside the box, exactly; genes not selected keep their value and the others move in the
    direction the draw asks for. *)
Theorem C136_rounded_mutation :
  forall rd pw top eps last, arithmetic rd pw top eps last ->
  forall eta rate (sel rnd : nat -> R) dims xs,
    0 <= eta -> (forall i, draw rd last (rnd i)) -> in_fbox rd dims xs ->
    exists ys, fmutate rd pw top eps xs dims rate eta sel rnd = Some ys /\ in_fbox rd dims ys /\
      forall i lb ub x, nth_error dims i = Some (lb, ub) -> nth_error xs i = Some x ->
        exists y, nth_error ys i = Some y /\
          (rate < sel i -> y = x) /\
          (sel i <= rate -> (rnd i <= 1 / 2 -> lb <= y <= x) /\ (1 / 2 < rnd i -> x <= y <= ub)).
Proof.
  intros rd pw top eps last A eta rate sel rnd dims xs He Hr B.
  destruct (fmutate_ok rd pw top eps last A eta rate sel rnd He Hr dims xs B) as (ys & E & By & J).
  exists ys. split; [exact E|]. split; [exact By|]. intros i lb ub x Ed Ex. destruct (J i _ x Ed Ex) as (y & Ey & M). exists y. split; [exact Ey|exact M].
Qed.
Print Assumptions C136_rounded_mutation.

(** C137 - crossover of two vectors of numbers inside the box: no exception, complex number or nan; both children
    are inside the box, and where the parents recombine the first child is not above the second (before the swap). *)
Theorem C137_rounded_crossover :
  forall rd pw top eps last, arithmetic rd pw top eps last ->
  forall eta crossover_rate r0 (skip rand swap : nat -> R) dims xs ys,
    0 <= eta -> (forall i, draw rd last (rand i)) -> in_fbox rd dims xs -> in_fbox rd dims ys ->
    exists c d, fcrossover rd pw top eps xs ys dims crossover_rate eta r0 true skip rand swap = Some c /\
      fcrossover rd pw top eps xs ys dims crossover_rate eta r0 false skip rand swap = Some d /\
      in_fbox rd dims c /\ in_fbox rd dims d /\
      (crossover_rate < r0 -> c = xs /\ d = ys) /\
      (r0 <= crossover_rate ->
       forall i lb ub x y, nth_error dims i = Some (lb, ub) -> nth_error xs i = Some x -> nth_error ys i = Some y ->
         exists g h, nth_error c i = Some g /\ nth_error d i = Some h /\
           (1 / 2 < skip i \/ Rabs (rd (x - y)) <= eps -> g = x /\ h = y) /\
           (skip i <= 1 / 2 -> eps < Rabs (rd (x - y)) -> (swap i <= 1 / 2 -> g <= h) /\ (1 / 2 < swap i -> h <= g))).
Proof.
  intros rd pw top eps last A eta rate r0 skip rand swap dims xs ys He Hr Bx By. unfold fcrossover.
  destruct (Rlt_dec rate r0) as [H|H].
  - exists xs, ys. repeat (split; [auto; fail|]). intros; lra.
  - destruct (fsbx_ok rd pw top eps last A eta skip rand swap He Hr dims xs ys Bx By) as (c & d & E & Bc & Bd & J). rewrite E. cbn [fst snd].
    exists c, d. split; [reflexivity|]. split; [reflexivity|]. split; [exact Bc|]. split; [exact Bd|]. split; [intros; lra|]. intros _.
    intros i lb ub x y Ed Ex Ey. destruct (J i _ x y Ed Ex Ey) as (g & h & Eg & Eh & C1 & C2). exists g, h. split; [exact Eg|]. split; [exact Eh|].
    split; [exact C1|]. intros Hs Hd. specialize (C2 Hs Hd). destruct (Rlt_dec (1 / 2) (swap i)); split; intros; try lra.
Qed.
Print Assumptions C137_rounded_crossover.

(** C138 - one coordinate touched by OMOPSO's NonUniformMutation: no exception, the coordinate stays inside its
    bounds, moves in the direction drawn, and stays where it is when the budget is used up. *)
Theorem C138_rounded_non_uniform :
  forall rd pw top eps last, arithmetic rd pw top eps last ->
  forall progress perturbation lb ub (up : bool) r x,
    repr rd progress -> 0 <= progress <= 1 -> 0 < perturbation -> draw rd last r ->
    repr rd lb -> repr rd ub -> repr rd x -> lb <= x <= ub ->
    exists y, fnon_uniform rd pw top progress perturbation lb ub up r x = Some y /\ repr rd y /\ lb <= y <= ub /\
      (up = true -> x <= y) /\ (up = false -> y <= x) /\ (progress = 1 -> y = x).
Proof.
  intros rd pw top eps last A g b lb ub up r x Rg Hg Hb D Rl Ru Rx Hx.
  destruct (fnon_uniform_ok rd pw top eps last A g b lb ub up r x Rg Hg Hb D) as (y & E & (B & Ry & _) & H); [repeat split; auto; apply Hx|].
  exists y. split; [exact E|]. split; [exact Ry|]. split; [exact B|exact H].
Qed.
Print Assumptions C138_rounded_non_uniform.

(** The assumptions on the arithmetic hold for IEEE double precision with EPSILON = 2^-52 and draws that are
    multiples of 2^-53, with a correctly rounded pow. *)
Example C136_double_precision :
  arithmetic ieee ieee_pow ieee_top ieee_eps ieee_last /\
  draw ieee ieee_last (1 / 2) /\ draw ieee ieee_last ieee_last /\ in_fbox ieee [(0, 1); (-2, 2)] [1; 1 / 2].
Proof.
  pose proof ieee_arithmetic as A. split; [exact A|].
  pose proof last_repr as L.
  pose proof (rd_half _ _ _ _ _ A) as Hh. pose proof (rd_one _ _ _ _ _ A) as H1. pose proof (rd_zero _ _ _ _ _ A) as H0.
  pose proof (rd_two _ _ _ _ _ A) as H2. pose proof (rd_opp _ _ _ _ _ A _ H2) as Hm.
  assert (Q : bpow radix2 (-53) <= 1 / 2) by (rewrite half_pow; apply bpow_le; lia).
  unfold ieee_last in *.
  split; [split; [exact Hh|lra]|]. split; [split; [exact L|lra]|].
  split; [repeat constructor; cbn; lra|]. split; [repeat constructor; assumption|]. repeat constructor; cbn [fst snd]; assumption.
Qed.

(** C139 - gen_population in double precision: the vectors lie in the box although random.uniform rounds. *)
Theorem C139_uniform_stays_in_the_box :
  forall count dims (draws : nat -> nat -> R),
    Forall (fun d => fst d <= snd d /\ repr ieee (fst d) /\ repr ieee (snd d)) dims ->
    (forall i j, draw ieee ieee_last (draws i j)) ->
    length (fpopulation ieee count dims draws) = count /\ Forall (in_fbox ieee dims) (fpopulation ieee count dims draws).
Proof.
  intros count dims draws Hd Hr. unfold fpopulation. split; [rewrite map_length; apply seq_length|].
  apply Forall_forall. intros v Hv. apply in_map_iff in Hv. destruct Hv as (i & <- & _).
  assert (G : forall j, in_rbox dims (fvector ieee (draws i) j dims) /\ Forall (repr ieee) (fvector ieee (draws i) j dims)).
  { clear -Hd Hr. induction Hd as [|[a b] dims (H & Ra & Rb) _ IH]; intro j; cbn [fvector]; [split; constructor|]. cbn [fst snd] in *.
    destruct (IH (S j)) as [I1 I2]. split; constructor; auto; [|apply ieee_repr].
    apply uniform_in; auto. }
  destruct (G 0%nat) as [G1 G2]. split; [exact G1|]. split; [exact G2|]. eapply Forall_impl; [|exact Hd]. intros d (_ & H). exact H.
Qed.
Print Assumptions C139_uniform_stays_in_the_box.

Example C139_example : Forall (fun d => fst d <= snd d /\ repr ieee (fst d) /\ repr ieee (snd d)) [(0, 1); (-2, 2)].
Proof.
  pose proof ieee_arithmetic as A. pose proof (rd_two _ _ _ _ _ A) as H2.
  repeat constructor; cbn [fst snd]; try lra; [exact (rd_zero _ _ _ _ _ A)|exact (rd_one _ _ _ _ _ A)|exact (rd_opp _ _ _ _ _ A _ H2)|exact H2].
Qed.
