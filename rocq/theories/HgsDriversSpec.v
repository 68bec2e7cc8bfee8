(** Specification vocabulary for HGS over the drivers it is configured with. *)
From Coq Require Import QArith.
From Verif Require Import Spec VarModel NsgaModel HgsModel HgsSpec HgsDriversModel.
Local Open Scope nat_scope.

(** What every driver needs of its problem: the box of the search, a trim function that keeps vectors in it, [p_m] objectives,
    and Python's set iteration listing the members of the set. *)
Definition fair_problem (b : box) (P : params) : Prop :=
  p_dims P = b /\ (forall v, in_box b v -> in_box b (p_trim P v)) /\ (forall v, length (p_f P v) = p_m P) /\
  (0 <= p_epsilon P)%Z /\ (forall x l, Permutation (p_iter P x l) l).

Section Driver.
  Context {A draw drv : Type}.
  Variable N : node_driver A draw drv.
  Variable args : nat -> A.
  Variable b : box.

  (** A call HGS's user may make: three ratios, a population within the bounds and large enough for the root to sample from. *)
  Definition proper_call (C : config) (mpr : list Q) (pop : list vec) : Prop :=
    sound_config C /\ dims C = b /\ 3 <= length mpr /\ Forall (in_box b) pop /\
    (forall size, nth_error (population_sizes C) 0 = Some size -> 1 <= size <= length pop).
  Definition within_bounds (s : hgs (nat * drv)) : Prop :=
    Forall (in_box b) (finalized_population _ s) /\
    forall i n, node_at s i n -> Forall (in_box b) (population n) /\ Forall (in_box b) (delegates n).

  (** HGS over this driver never raises, and everything it finds is within the bounds, for all configurations that [needs]
      describes. *)
  Definition safe_in_hgs (needs : config -> Prop) : Prop :=
    forall hv_of raw EPSILON C sampling x mpr pop Ds, proper_call C mpr pop -> needs C ->
    exists s0 s, start_hgs N args C sampling x mpr pop = Ok s0 /\ run_hgs N args hv_of raw EPSILON C Ds s0 = Ok s /\ within_bounds s.

  (** The same of the runs that end without raising. *)
  Definition sound_in_hgs (needs : config -> Prop) : Prop :=
    forall hv_of raw EPSILON C sampling x mpr pop Ds s0 s, proper_call C mpr pop -> needs C ->
    start_hgs N args C sampling x mpr pop = Ok s0 -> run_hgs N args hv_of raw EPSILON C Ds s0 = Ok s -> within_bounds s.

  (** A property of the population and the delegates of every node, in every state HGS can reach. *)
  Definition always_in_hgs (needs : config -> Prop) (about : list vec -> list vec -> Prop) : Prop :=
    forall hv_of raw EPSILON C sampling x mpr pop Ds s0 s, proper_call C mpr pop -> needs C ->
    start_hgs N args C sampling x mpr pop = Ok s0 -> run_hgs N args hv_of raw EPSILON C Ds s0 = Ok s ->
    forall i n, node_at s i n -> about (population n) (delegates n).
End Driver.

(** No member of the population is better than a delegate; and the delegates are members. *)
Definition unbeaten (f : vec -> vec) (population delegates : list vec) : Prop :=
  forall d v, In d delegates -> In v population -> ~ pareto_dom (f v) (f d).
Definition members (population delegates : list vec) : Prop := incl delegates population.
