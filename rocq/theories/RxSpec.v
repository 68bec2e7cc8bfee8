(** Vocabulary for C145. *)
Require Import List.
Import ListNotations.

(** [q] holds the elements of all the lists, each list in its own order, mixed in some way. *)
Inductive interleaving {A : Type} : list (list A) -> list A -> Prop :=
| nothing_left : forall ls, Forall (fun l => l = []) ls -> interleaving ls []
| one_of_them : forall before x l after q,
    interleaving (before ++ l :: after) q -> interleaving (before ++ (x :: l) :: after) (x :: q).
