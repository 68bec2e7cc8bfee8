(** Model of the blurred objectives that HGS hands to its demes: algorithms/HGS/classic/ClassicHGS.py:212-225 and
    algorithms/HGS/tools.py:36-49 (the same function, used by algorithms/HGS/distributed/actors.py:245-249).  Over the reals;
    an exception is [None]. *)
From Coq Require Import Reals List.
From Verif Require Import ProbModel.
Import ListNotations.
Local Open Scope R_scope.

(** ClassicHGS.py:214-221, HGS/tools.py:38-45: the error is looked up after the objective has been called, and
    [random.gauss(mu, sigma)] is [mu + z * sigma] for a standard normal [z], here a fresh argument of every call. *)
Definition blurred_f (fitness_errors : list R) (level : nat) (f : list R -> option R) (z : R) (args : list R) : option R :=
  let* f_val := f args in
  let* error := nth_error fitness_errors level in
  Some (Rabs (f_val + z * (error * f_val / 3))).

(** ClassicHGS.py:225, HGS/tools.py:49. *)
Definition blurred_fitnesses (fitnesses : list (list R -> option R)) (fitness_errors : list R) (level : nat)
  : list (R -> list R -> option R) :=
  map (blurred_f fitness_errors level) fitnesses.
