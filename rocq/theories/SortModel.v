(** Python's sorted / list.sort: a stable sort by a total preorder.  [le a b] is key(a) <= key(b).
    The result of a stable sort is determined by the preorder, so an insertion sort models it. *)
From Verif Require Import Spec.

(** one insertion of the sort below (used in e.g. SPEA2.py:106-111, NSGAII.py:153, 178). *)
Fixpoint insert_by {A} (le : A -> A -> bool) (a : A) (l : list A) : list A :=
  match l with
  | [] => [a]
  | b :: l' => if le a b then a :: b :: l' else b :: insert_by le a l'
  end.

(** list.sort and sorted, which are stable (used in e.g. SPEA2.py:106-111, NSGAII.py:153, 178). *)
Definition stable_sort {A} (le : A -> A -> bool) (l : list A) : list A :=
  fold_right (insert_by le) [] l.
