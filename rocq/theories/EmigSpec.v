(** Fronts of a population and the chance with which emigrants are taken from them. *)
From Verif Require Import Spec.
From Coq Require Import QArith.
Local Open Scope nat_scope.

(** [fronts] are the fronts of [population], best first: nothing is lost, no front is empty, and each front consists of
    the members of what the previous ones leave that nothing there dominates. *)
Definition fronts_of {A} (f : A -> vec) (population : list A) (fronts : list (list A)) : Prop :=
  Permutation (concat fronts) population /\ Forall (fun front => front <> []) fronts /\
  forall i front, nth_error fronts i = Some front ->
    forall x, In x front <-> In x (concat (skipn i fronts)) /\ nondominated_in f (concat (skipn i fronts)) x.

(** 1 + 1/2 + ... + 1/n *)
Fixpoint harmonic (n : nat) : Q :=
  match n with O => 0%Q | S n' => (harmonic n' + 1 / inject_Z (Z.of_nat n))%Q end.
