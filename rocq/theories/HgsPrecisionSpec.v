(** Specification vocabulary for the precision of HGS's levels. *)
From Coq Require Import QArith.
From Verif Require Import Spec VarModel HgsModel HgsSpec HgsDriversModel TrimRunSpec.
Local Open Scope nat_scope.

(** Every gene has at most [k] significant bits. *)
Definition at_most_bits (k : nat) (l : list vec) : Prop := Forall (Forall (short k)) l.

(** In every state HGS can reach over this driver, what the deme has evaluated ([evaluated], read off its driver), its population and
    its delegates have no more bits than its level is configured with - whatever the configuration, the draws and the population
    HGS is started on. *)
Definition precise_in_hgs {A draw drv} (N : node_driver A draw drv) (args : nat -> A) (evaluated : drv -> list vec) (bits : nat -> nat) : Prop :=
  forall hv_of raw EPSILON C sampling x mpr pop Ds s0 s,
  start_hgs N args C sampling x mpr pop = Ok s0 -> run_hgs N args hv_of raw EPSILON C Ds s0 = Ok s ->
  forall i n, node_at s i n ->
  at_most_bits (bits (level n)) (evaluated (snd (driver n))) /\ at_most_bits (bits (level n)) (population n) /\
  at_most_bits (bits (level n)) (delegates n).
