(** Specification vocabulary: when one result is better than another, and what the numbers say. *)
From Verif Require Import Spec PrefModel.
From Coq Require Import Reals.

(** Everything [B] offers, [A] offers at least as well. *)
Definition covers (A B : list vec) : Prop := forall b, In b B -> exists a, In a A /\ no_worse a b.

(** [A] covers [B] and [B] does not cover [A]: nobody would choose [B]. *)
Definition outperforms (A B : list vec) : Prop := covers A B /\ ~ covers B A.

(** Hypervolume and dominance indicator are better when larger, the others when smaller. *)
Definition as_good (m : metric) (a b : R) : Prop :=
  match m with
  | Hypervolume | Pdi => (b <= a)%R
  | Igd | Ahd | Spacing | Gd => (a <= b)%R
  end.
