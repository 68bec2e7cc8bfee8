(** Specification vocabulary for the quality metrics. *)
From Verif Require Import Spec.
From Coq Require Import Reals.
Local Open Scope Z_scope.

(** [s] is the squared Euclidean distance of two vectors of the same length. *)
Inductive sq_dist : vec -> vec -> Z -> Prop :=
| sq_nil : sq_dist [] [] 0
| sq_cons x y a b s : sq_dist a b s -> sq_dist (x :: a) (y :: b) ((x - y) * (x - y) + s).

(** [s] is the Manhattan distance of two vectors of the same length. *)
Inductive manhattan : vec -> vec -> Z -> Prop :=
| mh_nil : manhattan [] [] 0
| mh_cons x y a b s : manhattan a b s -> manhattan (x :: a) (y :: b) (Z.abs (x - y) + s).

(** [d] is the smallest squared distance from [f] to a member of [to]. *)
Definition nearest (to : list vec) (f : vec) (d : Z) : Prop :=
  (exists t, In t to /\ sq_dist f t d) /\ (forall t e, In t to -> sq_dist f t e -> d <= e).

(** Shifted by [e], every point of [B] is weakly dominated by some point of [A]. *)
Definition covers_with (e : Z) (A B : list vec) : Prop :=
  forall b, In b B -> exists a, In a A /\ Forall2 (fun x y => x <= y + e) a b.

(** The unary additive epsilon indicator of [A] with respect to [B]. *)
Definition is_epsilon (A B : list vec) (e : Z) : Prop :=
  covers_with e A B /\ forall e', covers_with e' A B -> e <= e'.

(** The sum of a list of integers. *)
Definition total (l : list Z) : Z := fold_right Z.add 0 l.
(** The mean of the values, and the sum of squared deviations from it. *)
Definition mean (l : list Z) : R := (IZR (total l) / INR (length l))%R.
Definition deviations (l : list Z) : R := fold_right (fun d s => (mean l - IZR d) * (mean l - IZR d) + s)%R 0%R l.

(** [d] is the smallest Manhattan distance from the point at position [i] to a point at
    another position. *)
Definition nearest_other (l : list vec) (i : nat) (d : Z) : Prop :=
  (exists j a b, j <> i /\ nth_error l i = Some a /\ nth_error l j = Some b /\ manhattan a b d) /\
  (forall j a b e, j <> i -> nth_error l i = Some a -> nth_error l j = Some b -> manhattan a b e -> d <= e).

(** [w] is the width of the set in coordinate [k]: largest minus smallest value. *)
Definition width (l : list vec) (k : nat) (w : Z) : Prop :=
  exists lo hi, w = hi - lo /\ (exists p, In p l /\ nth_error p k = Some lo) /\
    (exists p, In p l /\ nth_error p k = Some hi) /\
    (forall p x, In p l -> nth_error p k = Some x -> lo <= x <= hi).

(** Two points further apart than [sigma]. *)
Definition far_apart (sigma : R) (x y : vec) : Prop := exists s, sq_dist x y s /\ (sigma < sqrt (IZR s))%R.
