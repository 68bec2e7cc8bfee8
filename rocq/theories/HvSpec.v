(** Specification of the hypervolume: with coordinates on a grid (see DESIGN.md, section 2) the
    region dominated by a front and bounded by the reference point is a finite union of unit
    cells, and its measure is their number.  A cell is named by its lower corner. *)
From Verif Require Import Spec.

(** The cell with lower corner [z] lies in the region dominated by [front] inside [ref]. *)
Definition cell_in (ref : vec) (front : list vec) (z : vec) : Prop :=
  Forall2 Z.lt z ref /\ exists p, In p front /\ Forall2 Z.le p z.

(** [v] is the measure of the dominated region. *)
Definition is_hypervolume (ref : vec) (front : list vec) (v : Z) : Prop :=
  exists cells : list vec,
    NoDup cells /\ (forall z, In z cells <-> cell_in ref front z) /\ v = Z.of_nat (length cells).

(** No point lies on the reference point's boundary and no two points (at different positions)
    share a coordinate; points not inside the reference point do not matter. *)
Definition general_position (ref : vec) (front : list vec) : Prop :=
  (forall p, In p front -> Forall2 Z.le p ref -> Forall2 Z.lt p ref) /\
  ForallOrdPairs (fun p q => Forall2 Z.le p ref -> Forall2 Z.le q ref -> Forall2 (fun x y => x <> y) p q) front.

(** No point lies on the reference point's boundary and no two points (at different positions)
    agree in the first objective; points not inside the reference point do not matter. *)
Definition separated (ref : vec) (front : list vec) : Prop :=
  (forall p, In p front -> Forall2 Z.le p ref -> Forall2 Z.lt p ref) /\
  ForallOrdPairs (fun p q => Forall2 Z.le p ref -> Forall2 Z.le q ref -> hd_error p <> hd_error q) front.

(** Lexicographic order of vectors. *)
Fixpoint lex_le (p q : vec) : Prop :=
  match p, q with
  | x :: p', y :: q' => (x < y)%Z \/ (x = y /\ lex_le p' q')
  | _, _ => True
  end.

(** No point lies on the reference point's boundary, and points that agree in the first objective
    are listed in lexicographic order (the same point may occur more than once); points not inside
    the reference point do not matter. *)
Definition ties_in_order (ref : vec) (front : list vec) : Prop :=
  (forall p, In p front -> Forall2 Z.le p ref -> Forall2 Z.lt p ref) /\
  ForallOrdPairs (fun p q => Forall2 Z.le p ref -> Forall2 Z.le q ref -> hd_error p = hd_error q -> lex_le p q) front.

(** The circular list through the sentinel 0 with links [next], [prev] holds exactly [l], in
    this order. *)
Definition ring (next prev : nat -> nat) (l : list nat) : Prop :=
  forall l1 a b l2, 0%nat :: l ++ [0%nat] = l1 ++ a :: b :: l2 -> next a = b /\ prev b = a.
