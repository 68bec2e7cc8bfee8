(** Vocabulary for C155. *)
From Verif Require Import WrunModel.

(** How often an event happens. *)
Definition times (p : event -> bool) (tr : list event) : nat := length (filter p tr).
Definition is_made (k : nat) (e : event) : bool := match e with Made i => Nat.eqb i k | _ => false end.
Definition is_shut (k : nat) (e : event) : bool := match e with Shut i => Nat.eqb i k | _ => false end.
Definition is_ran (k : nat) (e : event) : bool := match e with Ran i => Nat.eqb i k | _ => false end.

(** Nothing goes wrong in the simulation, which returns [r]. *)
Definition succeeds {R} (j : job R) (r : R) : Prop :=
  (j_renice _ j = None \/ j_nice _ j = None) /\ j_seed _ j = None /\ j_prepare _ j = None /\ j_make _ j = None /\
  j_run _ j = inl r /\ j_shutdown _ j = None.

(** What goes wrong, if anything, is an Exception raised while the driver is prepared, made or run. *)
Definition ordinary (e : exn) : Prop := forall n, e <> Fatal n.
Definition contained {R} (j : job R) : Prop :=
  (j_renice _ j = None \/ j_nice _ j = None) /\ j_seed _ j = None /\
  (forall e, j_prepare _ j = Some e -> ordinary e) /\ (forall e, j_make _ j = Some e -> ordinary e) /\
  (forall e, j_run _ j = inr e -> ordinary e) /\ j_shutdown _ j = None.

(** The processor time spent. *)
Definition spent {R} (j : job R) : Z := (snd (j_clock _ j) - fst (j_clock _ j))%Z.
