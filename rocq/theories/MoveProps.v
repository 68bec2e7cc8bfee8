(** C161: how likely mutation moves the genes. *)
From Coq Require Import Reals List Lra Lia.
From Verif Require Import OpModel OpSpec SimplexSpec SimplexProofs UnifSpec UnifProofs MoveSpec MoveProofs.
Import ListNotations.
Local Open Scope R_scope.

(** Gene [i] is touched according to draw 2i and moved according to draw 2i + 1 (in the code the second one is made
    only if the gene is touched). *)
Theorem C161_mutation :
  forall (eps eta rate : R) (dims : list (R * R)) (xs : list R) (moves : list move),
    0 < eps -> 0 <= eta -> 0 <= rate <= 1 -> in_rbox dims xs -> length moves = length xs ->
    chance (2 * length dims)
      (fun us => exists ys,
         rmutate eps xs dims rate eta (fun i => nth (2 * i) us 0) (fun i => nth (2 * i + 1) us 0) = Some ys /\
         Forall2 (fun mx y => moved (fst mx) (snd mx) y) (combine moves xs) ys)
      (chance_of_moves rate dims xs moves).
Proof.
  intros eps eta rate dims xs moves He Ht Hr B Lm.
  assert (Lx : length xs = length dims) by (unfold in_rbox in B; clear -B; induction B; cbn; congruence).
  exists (fun us => match rmutate eps xs dims rate eta (fun i => nth (2 * i) us 0) (fun i => nth (2 * i + 1) us 0) with
                    | Some ys => if all_moved_dec moves xs ys then 1 else 0 | None => 0 end). split.
  - intros us. destruct (rmutate _ _ _ _ _ _ _) as [ys|].
    + destruct (all_moved_dec moves xs ys) as [H|H]; split; try reflexivity.
      * intros N. exfalso. apply N. exists ys. auto.
      * intros (zs & E & F). injection E as <-. contradiction.
    + split; [|reflexivity]. intros (zs & E & _). discriminate.
  - apply mean_ext with (f := factors2 (map (hit eps eta rate) (combine (combine dims xs) moves))).
    + intros us _ F. rewrite (rmutate_outs eps eta rate He Ht dims xs us B F). now apply factors2_hit.
    + unfold chance_of_moves.
      replace (2 * length dims)%nat with (double (length (map (hit eps eta rate) (combine (combine dims xs) moves))))
        by (rewrite double_2, map_length, !combine_length; lia).
      apply mean_factors2. clear Lx. revert moves Lm. induction B as [|[lb ub] x dims xs Hx B IH]; intros [|m moves] Lm; try discriminate; cbn [combine map]; constructor.
      * cbn [fst snd] in *. now apply hit_mean.
      * apply IH. now injection Lm.
Qed.
Print Assumptions C161_mutation.

(** Strictly between its bounds a gene goes down as often as up, and stays unless it is touched. *)
Theorem C161_neither_direction_is_favoured :
  forall (rate lb ub x : R), lb < x < ub ->
    chance_of_move rate (lb, ub) x Down = rate / 2 /\ chance_of_move rate (lb, ub) x Up = rate / 2 /\
    chance_of_move rate (lb, ub) x Kept = 1 - rate.
Proof.
  intros rate lb ub x H. unfold chance_of_move. cbn [fst snd].
  destruct (Rlt_dec lb x); [|lra]. destruct (Rlt_dec x ub); [|lra]. repeat split; lra.
Qed.
Print Assumptions C161_neither_direction_is_favoured.

(** Nothing changes: the chance that mutation is the identity on a vector strictly inside the box. *)
Corollary C161_unchanged :
  forall (eps eta rate : R) (dims : list (R * R)) (xs : list R),
    0 < eps -> 0 <= eta -> 0 <= rate <= 1 -> Forall2 (fun d x => fst d < x < snd d) dims xs ->
    chance (2 * length dims)
      (fun us => rmutate eps xs dims rate eta (fun i => nth (2 * i) us 0) (fun i => nth (2 * i + 1) us 0) = Some xs)
      ((1 - rate) ^ length dims).
Proof.
  intros eps eta rate dims xs He Ht Hr I.
  assert (B : in_rbox dims xs) by (unfold in_rbox; clear -I; induction I; constructor; [lra | assumption]).
  assert (Lx : length xs = length dims) by (clear -I; induction I; cbn; congruence).
  pose proof (C161_mutation eps eta rate dims xs (repeat Kept (length xs)) He Ht Hr B (repeat_length _ _)) as (f & Hf & M).
  assert (P : chance_of_moves rate dims xs (repeat Kept (length xs)) = (1 - rate) ^ length dims).
  { clear -I. unfold chance_of_moves. induction I as [|[lb ub] x dims xs H I IH]; [reflexivity|]. unfold product in *.
    cbn [length repeat combine map fold_right fst snd pow] in *. rewrite IH. destruct (C161_neither_direction_is_favoured rate lb ub x H) as (_ & _ & ->). reflexivity. }
  rewrite P in M. exists f. split; [|exact M]. intros us. destruct (Hf us) as [H1 H2].
  assert (Q : forall ys, Forall2 (fun mx y => moved (fst mx) (snd mx) y) (combine (repeat Kept (length xs)) xs) ys <-> ys = xs).
  { clear. induction xs as [|x xs IH]; intros ys; cbn [length repeat combine].
    - split; [intros H; now inversion H | intros ->; constructor].
    - split.
      + intros H. inversion H as [|a b c d H3 H4]; subst. cbn in H3. subst. f_equal. now apply IH.
      + intros ->. constructor; [reflexivity | now apply IH]. }
  split; intros H.
  - apply H1. exists xs. split; [exact H | now apply Q].
  - apply H2. intros (ys & E & F). apply Q in F. subst ys. exact (H E).
Qed.
Print Assumptions C161_unchanged.

(** Two genes, one in the middle and one at its lower bound, with rate 1/2: the first goes down and the second stays
    with chance 1/4 * 3/4. *)
Example C161_example :
  chance 4 (fun us => exists ys,
      rmutate (1/1000) [1/2; 0] [(0, 1); (0, 3)] (1/2) 20 (fun i => nth (2 * i) us 0) (fun i => nth (2 * i + 1) us 0) = Some ys /\
      Forall2 (fun mx y => moved (fst mx) (snd mx) y) [(Down, 1/2); (Kept, 0)] ys) (3/16).
Proof.
  replace (3/16) with (chance_of_moves (1/2) [(0, 1); (0, 3)] [1/2; 0] [Down; Kept]).
  - apply (C161_mutation (1/1000) 20 (1/2) [(0, 1); (0, 3)] [1/2; 0] [Down; Kept]); try lra; [|reflexivity].
    repeat constructor; cbn; lra.
  - unfold chance_of_moves, chance_of_move, product. cbn [combine map fst snd fold_right].
    destruct (Rlt_dec 0 (1/2)); [|lra]. destruct (Rlt_dec 0 0); [lra|]. destruct (Rlt_dec 0 3); lra.
Qed.
