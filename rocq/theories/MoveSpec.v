(** What mutation does to a gene: it goes down, stays or goes up. *)
From Coq Require Import Reals List.
From Verif Require Import UnifSpec.
Import ListNotations.
Local Open Scope R_scope.

Inductive move := Down | Kept | Up.

(** The gene [x] became [y]. *)
Definition moved (m : move) (x y : R) : Prop :=
  match m with Down => y < x | Kept => y = x | Up => x < y end.

(** A gene [x] with bounds [lb] and [ub] is touched with chance [rate] and then goes down or up with equal chances;
    a gene at a bound does not cross it. *)
Definition chance_of_move (rate : R) (bounds : R * R) (x : R) (m : move) : R :=
  let down := if Rlt_dec (fst bounds) x then rate / 2 else 0 in
  let up := if Rlt_dec x (snd bounds) then rate / 2 else 0 in
  match m with Down => down | Up => up | Kept => 1 - down - up end.

(** Independent genes: the product of their chances. *)
Definition chance_of_moves (rate : R) (dims : list (R * R)) (xs : list R) (moves : list move) : R :=
  product (map (fun g : ((R * R) * R) * move => chance_of_move rate (fst (fst g)) (snd (fst g)) (snd g))
               (combine (combine dims xs) moves)).
