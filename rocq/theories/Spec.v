(** Shared specification vocabulary: what the English properties talk about,
    independent of how the code computes it. *)
From Coq Require Export List ZArith Lia Permutation Bool Arith.
From Coq Require Export Sorted.
Export ListNotations.

(** An objective vector or a genotype.  Every finite double is an integer
    multiple of 2^-1074, so [Z] represents doubles exactly (see DESIGN.md, section 2). *)
Definition vec := list Z.

(** [a] is at least as good as [b] in every objective (minimisation). *)
Definition no_worse (a b : vec) : Prop := Forall2 Z.le a b.

(** [a] is strictly better than [b] in some objective. *)
Definition better_somewhere (a b : vec) : Prop :=
  exists i x y, nth_error a i = Some x /\ nth_error b i = Some y /\ (x < y)%Z.

(** Pareto dominance (minimisation). *)
Definition pareto_dom (a b : vec) : Prop := no_worse a b /\ better_somewhere a b.

(** All vectors of a collection have [d] objectives. *)
Definition all_dim {A} (d : nat) (f : A -> vec) (l : list A) : Prop :=
  forall x, In x l -> length (f x) = d.

(** [x] is dominated by no member of [l]. *)
Definition nondominated_in {A} (f : A -> vec) (l : list A) (x : A) : Prop :=
  forall y, In y l -> ~ pareto_dom (f y) (f x).

(** A box: one (lower, upper) pair per dimension. *)
Definition box := list (Z * Z).
Definition valid_box (b : box) : Prop := Forall (fun p => (fst p <= snd p)%Z) b.
Definition in_box (b : box) (v : vec) : Prop :=
  Forall2 (fun p x => (fst p <= x <= snd p)%Z) b v.
