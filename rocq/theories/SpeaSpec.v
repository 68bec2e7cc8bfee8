(** Specification vocabulary for SPEA2: positions of a list of evaluated individuals. *)
From Verif Require Import Spec MetSpec SpeaModel.

(** Position [i] holds an individual that no member of the list dominates; [f] gives the
    objective vector. *)
Definition nondominated_at {A} (f : A -> vec) (l : list A) (i : nat) : Prop :=
  exists x, nth_error l i = Some x /\ nondominated_in f l x.

(** [L] enumerates the positions of the non-dominated members. *)
Definition nondominated_positions {A} (f : A -> vec) (l : list A) (L : list nat) : Prop :=
  NoDup L /\ forall i, In i L <-> nondominated_at f l i.

(** The squared distance of the objective vectors at two positions. *)
Definition apart {A} (f : A -> vec) (l : list A) (i j : nat) (s : Z) : Prop :=
  exists x y, nth_error l i = Some x /\ nth_error l j = Some y /\ sq_dist (f x) (f y) s.

(** [r] lists the distances from position [i] to the positions [pop], in increasing order. *)
Definition sorted_distances {A} (f : A -> vec) (l : list A) (pop : list nat) (i : nat) (r : list Z) : Prop :=
  Sorted Z.le r /\ exists r', Permutation r r' /\ Forall2 (fun j s => apart f l i j s) pop r'.

(** Lexicographic order on lists of distances. *)
Inductive lex_lt : list Z -> list Z -> Prop :=
| lex_here x y a b : (x < y)%Z -> lex_lt (x :: a) (y :: b)
| lex_later x a b : lex_lt a b -> lex_lt (x :: a) (x :: b).

(** The tournaments of a step draw two different members of the archive of [N]. *)
Definition good_draws (N : nat) (D : spea_draws) : Prop :=
  forall i, i < N ->
    fst (t1 D i) < N /\ snd (t1 D i) < N /\ fst (t1 D i) <> snd (t1 D i) /\
    fst (t2 D i) < N /\ snd (t2 D i) < N /\ fst (t2 D i) <> snd (t2 D i).

(** [e'] is [e] without one of the two members of a closest pair. *)
Definition thinned {A} (f : A -> vec) (l : list A) (e e' : list nat) : Prop :=
  exists t q s, Permutation e (t :: e') /\ In q e /\ q <> t /\ apart f l t q s /\
    forall a b s', In a e -> In b e -> a <> b -> apart f l a b s' -> (s <= s')%Z.

(** Several such removals, one after the other. *)
Inductive thins {A} (f : A -> vec) (l : list A) : list nat -> list nat -> Prop :=
| thins_none e : thins f l e e
| thins_one e e' e'' : thinned f l e e' -> thins f l e' e'' -> thins f l e e''.
