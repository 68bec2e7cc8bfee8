(** Specification vocabulary for IBEA. *)
From Verif Require Import Spec NsgaModel.
From Coq Require Import Reals.

(** Sum of a list of reals. *)
Definition rsum (l : list R) : R := fold_right Rplus 0%R l.

(** The indicator fitness of [x] among [S]: minus the summed losses [w y x] inflicted on it by
    the other members. *)
Definition indicator_fitness (w : nat -> nat -> R) (S : list nat) (x : nat) : R :=
  (- rsum (map (fun y => w y x) (filter (fun y => negb (Nat.eqb y x)) S)))%R.

(** [removals w S rs T]: from [S] the individuals [rs] were removed one after the other, leaving
    [T]; each one had the smallest fitness, computed from scratch among those then present. *)
Inductive removals (w : nat -> nat -> R) : list nat -> list nat -> list nat -> Prop :=
| removed_none S T : Permutation S T -> removals w S [] T
| removed_one S r S' rs T :
    Permutation S (r :: S') ->
    (forall y, In y S -> (indicator_fitness w S r <= indicator_fitness w S y)%R) ->
    removals w S' rs T -> removals w S (r :: rs) T.

(** [l] is a largest element of [f] over the indices below [m]. *)
Definition largest_below (m : nat) (f : nat -> R) (v : R) : Prop :=
  (exists j, j < m /\ v = f j) /\ (forall j, j < m -> (f j <= v)%R).

(** [lo] and [hi] are the smallest and largest value of objective [j] among [S]. *)
Definition objective_range (o : nat -> Z) (S : list nat) (lo hi : Z) : Prop :=
  (exists x, In x S /\ o x = lo) /\ (exists x, In x S /\ o x = hi) /\
  (forall x, In x S -> (lo <= o x <= hi)%Z).

(** [v] is the additive epsilon indicator I(x, y) on objectives normalised over [S]. *)
Definition additive_epsilon (eps : R) (m : nat) (o : nat -> nat -> Z) (S : list nat) (x y : nat) (v : R) : Prop :=
  exists lo hi : nat -> Z,
    (forall j, j < m -> objective_range (o j) S (lo j) (hi j)) /\
    largest_below m (fun j => (IZR (o j x - lo j) / (IZR (hi j - lo j) + eps)
                               - IZR (o j y - lo j) / (IZR (hi j - lo j) + eps))%R) v.

(** Individuals present over all evaluation rounds of a run, after the initial one: N + M in each
    step, the current number (starting with [size]) in each finalisation. *)
Fixpoint met (N M size : nat) (ops : list op) : nat :=
  match ops with
  | [] => 0
  | Step _ :: ops' => (N + M) + met N M (N + M) ops'
  | Finalize :: ops' => size + met N M N ops'
  end.
(** The number of steps in a run. *)
Fixpoint steps_of (ops : list op) : nat :=
  match ops with [] => 0 | Step _ :: l => S (steps_of l) | Finalize :: l => steps_of l end.

(** The fitness archive holds the objectives of [v]. *)
Definition archived (fa : option (list (vec * vec))) (v : vec) : Prop :=
  exists m o, fa = Some m /\ In (v, o) m.
