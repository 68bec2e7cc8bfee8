(** Specification vocabulary for mantissa trimming (C55, C91). *)
From Verif Require Import TrimModel.
From Coq Require Import QArith List.
Import ListNotations.
Local Open Scope Q_scope.

(** A normal number, or a subnormal one at the smallest exponent. *)
Definition normal (emin : Z) (x : float_tuple) : Prop := (emin <= exponent x)%Z /\ ((exists ds, digits x = true :: ds) \/ exponent x = emin).

(** Every coordinate lies within its bounds. *)
Definition within (box : list (float_tuple * float_tuple)) (v : list float_tuple) : Prop :=
  Forall2 (fun b x => value (fst b) <= value x <= value (snd b)) box v.
