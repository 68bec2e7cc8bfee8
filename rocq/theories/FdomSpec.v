(** What a double stands for, and dominance on that. *)
From Coq Require Import List Reals.
From Flocq Require Import BinarySingleNaN.
From Verif Require Import FdomModel.
Import ListNotations.
Local Open Scope R_scope.

(** The extended real line. *)
Inductive ext := Below | Fin (r : R) | Above.
Definition ext_le (a b : ext) : Prop :=
  match a, b with
  | Below, _ => True
  | _, Above => True
  | Fin x, Fin y => x <= y
  | _, _ => False
  end.

(** The value of a double; nan has none. *)
Definition stands_for (x : double) : option ext :=
  match x with
  | B754_infinity true => Some Below
  | B754_infinity false => Some Above
  | B754_nan => None
  | _ => Some (Fin (B2R x))
  end.

(** [a] is no worse anywhere and better somewhere (minimisation). *)
Definition ext_dom (a b : list ext) : Prop := Forall2 ext_le a b /\ ~ Forall2 ext_le b a.

(** The vector has a value in every coordinate. *)
Definition values (xs : fvec) (vs : list ext) : Prop := Forall2 (fun x v => stands_for x = Some v) xs vs.
Definition has_nan (xs : fvec) : Prop := exists x, In x xs /\ stands_for x = None.
