(** Jumping genes: which gene ends up where. *)
From Coq Require Import List Arith QArith.
Import ListNotations.
Local Open Scope Q_scope.

(** Gene by gene, [x] lies at the share [r] of the way from the lower to the upper bound of its dimension. *)
Fixpoint shares (dims : list (Q * Q)) (x r : list Q) : Prop :=
  match dims, x, r with
  | [], [], [] => True
  | (lb, ub) :: dims', a :: x', s :: r' => a == lb + s * (ub - lb) /\ shares dims' x' r'
  | _, _, _ => False
  end.

(** The elements at the given positions. *)
Definition genes_at (genes : list Q) (positions : list nat) : list Q := map (fun i => nth i genes 0) positions.

(** The elements not at the given positions, in order; the first one has number [k]. *)
Fixpoint left_over (k : nat) (genes : list Q) (positions : list nat) : list Q :=
  match genes with
  | [] => []
  | g :: genes' =>
      if existsb (Nat.eqb k) positions then left_over (S k) genes' positions
      else g :: left_over (S k) genes' positions
  end.

(** [genes] with the elements from position [i] on replaced by [new], as far as there is room. *)
Definition overwritten (genes : list Q) (i : nat) (new : list Q) : list Q :=
  firstn i genes ++ firstn (length genes - i) new ++ skipn (i + length new) genes.
