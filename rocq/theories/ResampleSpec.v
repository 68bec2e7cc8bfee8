(** Mean values over all equally likely resamples. *)
From Coq Require Import List Arith ZArith QArith.
Import ListNotations.
Local Open Scope Q_scope.

(** All the sequences of [k] positions below [n]: the equally likely draws of [k] elements with replacement. *)
Fixpoint sequences (n k : nat) : list (list nat) :=
  match k with
  | O => [[]]
  | S k' => flat_map (fun i => map (cons i) (sequences n k')) (seq 0 n)
  end.

Definition sum_of (l : list Q) : Q := fold_right Qplus 0 l.

(** The mean of [f] over those draws. *)
Definition expected (n k : nat) (f : list nat -> Q) : Q :=
  sum_of (map f (sequences n k)) / inject_Z (Z.of_nat (n ^ k)).

(** [m] is the mean of the numbers [l], and [v] their variance. *)
Definition mean_of (l : list Q) (m : Q) : Prop := sum_of l == inject_Z (Z.of_nat (length l)) * m.
Definition variance_of (l : list Q) (v : Q) : Prop :=
  exists m, mean_of l m /\ sum_of (map (fun x => (x - m) * (x - m)) l) == inject_Z (Z.of_nat (length l)) * v.
