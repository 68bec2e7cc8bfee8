(** Specification vocabulary for timed runs in floating point. *)
From Coq Require Import Reals List ZArith.
From Flocq Require Import Core.
From Verif Require Import RndIeee.
Import ListNotations.
Local Open Scope R_scope.

(** The time that has passed according to the clock after [n] steps of the driver, summed in doubles. *)
Definition clock_after (readings : list (R * R)) (n : nat) : R :=
  fold_left (fun t r => ieee (t + ieee (snd r - fst r))) (firstn n readings) 0.

(** The same without rounding. *)
Definition true_time_after (readings : list (R * R)) (n : nat) : R :=
  fold_left (fun t r => t + (snd r - fst r)) (firstn n readings) 0.

(** A double. *)
Definition is_double (x : R) : Prop := generic_format radix2 (FLT_exp (-1074) 53) x.

(** What time.time() returns between January 2004 and January 2038: doubles between 2^30 and 2^31 seconds. *)
Definition plausible_readings (readings : list (R * R)) : Prop :=
  Forall (fun r => is_double (fst r) /\ is_double (snd r) /\
    IZR (2 ^ 30) <= fst r < IZR (2 ^ 31) /\ IZR (2 ^ 30) <= snd r < IZR (2 ^ 31)) readings.

(** The clock is never set back: every reading is at least the one before it. *)
Fixpoint never_set_back (from : R) (readings : list (R * R)) : Prop :=
  match readings with
  | [] => True
  | r :: readings' => from <= fst r /\ fst r <= snd r /\ never_set_back (snd r) readings'
  end.
