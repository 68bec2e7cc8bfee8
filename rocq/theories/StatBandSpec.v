(** Mean and standard deviation of the data as real numbers. *)
From Verif Require Import StatModel.
From Coq Require Import Reals Qreals.
Local Open Scope R_scope.

Definition real_mean (data : list Q) : R :=
  fold_right Rplus 0 (map Q2R data) / INR (length data).
Definition real_stdev (data : list Q) : R :=
  sqrt (fold_right Rplus 0 (map (fun x => Rsqr (Q2R x - real_mean data)) data) / INR (length data)).

(** Farther than three standard deviations from the mean. *)
Definition far (data : list Q) (x : Q) : Prop :=
  Q2R x < real_mean data - 3 * real_stdev data \/ real_mean data + 3 * real_stdev data < Q2R x.
