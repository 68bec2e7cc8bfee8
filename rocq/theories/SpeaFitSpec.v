(** The fitness of SPEA2 (Zitzler, Laumanns, Thiele 2001), by positions of a list of evaluated
    individuals; [f] gives the objective vector. *)
From Verif Require Import Spec MetSpec SpeaSpec.
From Coq Require Import Reals.
Local Open Scope nat_scope.

(** [L] lists the positions with property [P], each once. *)
Definition enumerates (P : nat -> Prop) (L : list nat) : Prop := NoDup L /\ forall i, In i L <-> P i.

Definition dominates_at {A} (f : A -> vec) (l : list A) (i j : nat) : Prop :=
  exists x y, nth_error l i = Some x /\ nth_error l j = Some y /\ pareto_dom (f x) (f y).

(** The strength of an individual: the number of individuals it dominates. *)
Definition strength_is {A} (f : A -> vec) (l : list A) (i s : nat) : Prop :=
  exists L, enumerates (dominates_at f l i) L /\ length L = s.

(** The raw fitness: the sum of the strengths of its dominators. *)
Definition raw_is {A} (f : A -> vec) (l : list A) (i r : nat) : Prop :=
  exists L S, enumerates (fun j => dominates_at f l j i) L /\
    (forall j, In j L -> strength_is f l j (S j)) /\ r = list_sum (map S L).

(** The squared distance to the k-th nearest other individual. *)
Definition neighbour_distance {A} (f : A -> vec) (l : list A) (i k : nat) (s : Z) : Prop :=
  exists others r, enumerates (fun j => j < length l /\ j <> i) others /\
    sorted_distances f l others i r /\ nth_error r (k - 1) = Some s.

(** Raw fitness plus density, with k the square root of the number of individuals, rounded down. *)
Definition spea2_fitness {A} (f : A -> vec) (l : list A) (i : nat) (F : R) : Prop :=
  exists raw k s, raw_is f l i raw /\ 1 <= k /\ k * k <= length l < S k * S k /\
    neighbour_distance f l i k s /\ F = (INR raw + 1 / (sqrt (IZR s) + 2))%R.
