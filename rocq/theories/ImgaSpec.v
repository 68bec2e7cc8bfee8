(** Specification vocabulary for the island model. *)
From Coq Require Import QArith.
From Coq Require Export List Arith.
Export ListNotations.
Local Open Scope nat_scope.

(** [t] lists the neighbours of each island. *)
Definition neighbour (t : list (list nat)) (i j : nat) : Prop := exists l, nth_error t i = Some l /\ In j l.

(** One set per island, neighbours are islands, neighbourhood is symmetric. *)
Definition valid_topology (n : nat) (t : list (list nat)) : Prop :=
  length t = n /\ (forall i j, neighbour t i j -> j < n) /\ (forall i j, neighbour t i j -> neighbour t j i).

(** The islands that have [k] as a neighbour, in order. *)
Definition senders (t : list (list nat)) (k : nat) : list nat :=
  filter (fun i => existsb (Nat.eqb k) (nth i t [])) (seq 0 (length t)).

(** ---- the torus of a given width: islands 0 .. n-1 are laid out row by row ---- *)
(** Next to each other on a ring of [len] places. *)
Definition ring_adjacent (len a b : nat) : Prop := a <> b /\ (b = (a + 1) mod len \/ a = (b + 1) mod len).
(** Places in row [r], and in column [c]. *)
Definition row_length (w n r : nat) : nat := Nat.min w (n - r * w).
Definition column_height (w n c : nat) : nat := n / w + (if c <? n mod w then 1 else 0).
(** In the same row and next to each other on its ring, or in the same column and next to each other on its ring. *)
Definition torus_adjacent (w n i j : nat) : Prop :=
  (i / w = j / w /\ ring_adjacent (row_length w n (i / w)) (i mod w) (j mod w)) \/
  (i mod w = j mod w /\ ring_adjacent (column_height w n (i mod w)) (i / w) (j / w)).

(** Islands reachable from each other along neighbours. *)
Inductive linked (t : list (list nat)) : nat -> nat -> Prop :=
  | linked_here i : linked t i i
  | linked_step i j k : neighbour t i j -> linked t j k -> linked t i k.

(** [topo]: the sets [t] gives (as lists, in any order and with repetitions) in some iteration order. *)
Definition same_sets (t topo : list (list nat)) : Prop :=
  Forall2 (fun l s => NoDup s /\ forall x, In x s <-> In x l) t topo.

(** The random numbers of one emigrant: random.random(), and the place of the one chosen. *)
Definition draw_ok (u : Q * nat) : Prop := (0 <= fst u < 1)%Q.
