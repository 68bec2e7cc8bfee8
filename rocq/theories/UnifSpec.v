(** The uniform distribution in a box, for whole populations of independent vectors. *)
From Coq Require Import Reals List.
From Verif Require Import OpModel SimplexSpec.
Import ListNotations.
Local Open Scope R_scope.

(** The draws [us] in the order in which they are made, [n] for each vector. *)
Definition row_by_row (n : nat) (us : list R) (i j : nat) : R := nth (i * n + j) us 0.

Definition product (l : list R) : R := fold_right Rmult 1 l.

(** The share of the box that lies above the thresholds [t]. *)
Definition share (dims : rbox) (t : list R) : R :=
  product (map (fun dt : (R * R) * R => (snd (fst dt) - snd dt) / (snd (fst dt) - fst (fst dt))) (combine dims t)).

(** A random population of [count] vectors is made of independent vectors, each uniformly distributed in the box: the
    chance that the vectors lie above given thresholds, one vector of them for each, is the product of the shares. *)
Definition uniform_in_box (count : nat) (dims : rbox) (population : list R -> list (list R)) : Prop :=
  forall ts, length ts = count ->
    Forall (Forall2 (fun d x => fst d <= x <= snd d) dims) ts ->
    chance (count * length dims) (fun us => Forall2 (Forall2 Rlt) ts (population us)) (product (map (share dims) ts)).
