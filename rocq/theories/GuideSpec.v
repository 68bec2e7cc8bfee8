(** How often a leader guides a particle. *)
From Verif Require Import Spec OmopsoModel.
From Coq Require Import QArith.
Local Open Scope nat_scope.

(** Of the members of [l], exactly [n] have property [P]. *)
Definition number_in {A} (P : A -> Prop) (l : list A) (n : nat) : Prop :=
  exists L, NoDup L /\ (forall y, In y L <-> In y l /\ P y) /\ length L = n.

(** Exactly [c] of the ordered pairs of different positions below [n] are answered with [x]. *)
Definition pairs_giving {A} (n : nat) (choose : nat * nat -> option A) (x : A) (c : nat) : Prop :=
  exists L, NoDup L /\ (forall i j, In (i, j) L <-> i < n /\ j < n /\ i <> j /\ choose (i, j) = Some x) /\ length L = c.

(** The crowding distance of [a] is smaller than that of [b] ([None] is infinity): [a] lies in the more crowded place. *)
Definition more_crowded (a b : leader) : Prop :=
  match l_crowd a, l_crowd b with
  | Some x, Some y => (x < y)%Q
  | Some _, None => True
  | None, _ => False
  end.

(** The chance of a leader that [c] of the equally likely pairs give. *)
Definition chance (c n : nat) : Q := (inject_Z (Z.of_nat c) / inject_Z (Z.of_nat (n * (n - 1))))%Q.
