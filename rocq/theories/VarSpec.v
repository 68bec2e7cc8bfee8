(** Specification vocabulary for the operators modelled over exact rationals. *)
From Verif Require Import Spec.
From Coq Require Import QArith.

(** One gene per dimension, each inside its bounds. *)
Definition in_qbox (b : list (Q * Q)) (v : list Q) : Prop :=
  Forall2 (fun p x => (fst p <= x /\ x <= snd p)%Q) b v.
