(** What a user expects of the objectives a deme of HGS works with. *)
From Coq Require Import Reals List.
From Verif Require Import ProbModel ProbSpec BlurModel.
Import ListNotations.
Local Open Scope R_scope.

(** [f'] is what a deme of this level is told about [x] when its objectives are called once each, with draws [zs]. *)
Definition told (P : problem) (fitness_errors : list R) (level : nat) (zs : list R) (x f' : list R) : Prop :=
  Forall2 (fun blurred_and_z v => fst blurred_and_z (snd blurred_and_z) x = Some v)
    (combine (blurred_fitnesses (p_fits P) fitness_errors level) zs) f' /\
  length zs = length (p_fits P).

Definition nonnegative (P : problem) : Prop := forall x f, admissible P x -> evaluates P x f -> Forall (fun v => 0 <= v) f.

(** With no error configured for the level a deme is told the objectives of the problem, ... *)
Definition exact_without_error (P : problem) : Prop :=
  forall fitness_errors level, nth_error fitness_errors level = Some 0 ->
  forall x f zs, admissible P x -> evaluates P x f -> length zs = length (p_fits P) ->
  told P fitness_errors level zs x f /\ forall f', told P fitness_errors level zs x f' -> f' = f.

(** ... and so prefers one vector to another exactly when the problem does. *)
Definition ranks_without_error (P : problem) : Prop :=
  forall fitness_errors level, nth_error fitness_errors level = Some 0 ->
  forall x y f g zs zs' f' g', admissible P x -> admissible P y -> evaluates P x f -> evaluates P y g ->
  told P fitness_errors level zs x f' -> told P fitness_errors level zs' y g' ->
  (better f' g' <-> better f g).

(** A vector that is better according to the problem, and worse according to every deme. *)
Definition ranked_backwards (P : problem) : Prop :=
  exists x y f g, admissible P x /\ admissible P y /\ evaluates P x f /\ evaluates P y g /\ better f g /\
  forall fitness_errors level zs zs', nth_error fitness_errors level = Some 0 ->
    length zs = length (p_fits P) -> length zs' = length (p_fits P) ->
    exists f' g', told P fitness_errors level zs x f' /\ told P fitness_errors level zs' y g' /\ better g' f'.
