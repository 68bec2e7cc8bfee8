(** Chances of events about independent uniform draws, and the uniform distribution on the simplex. *)
From Coq Require Import Reals List.
From Coquelicot Require Import Coquelicot.
Import ListNotations.
Local Open Scope R_scope.

(** [mean n f p]: p is the mean of [f us] when the [n] numbers [us] are drawn independently and uniformly between 0
    and 1: the iterated integral over the unit interval, the first draw being the outermost. *)
Fixpoint mean (n : nat) (f : list R -> R) (p : R) : Prop :=
  match n with
  | O => p = f []
  | S n' => exists g, (forall u, 0 < u < 1 -> mean n' (fun us => f (u :: us)) (g u)) /\ is_RInt g 0 1 p
  end.

(** [chance n E p]: the chance of the event [E] is p, the mean of its indicator function. *)
Definition chance (n : nat) (E : list R -> Prop) (p : R) : Prop :=
  exists f, (forall us, (E us -> f us = 1) /\ (~ E us -> f us = 0)) /\ mean n f p.

Definition total (t : list R) : R := fold_right Rplus 0 t.

(** A random point of the simplex of [m] coordinates is uniformly distributed: for thresholds [t] that leave
    something of the simplex, the part where each coordinate exceeds its threshold is a copy of the simplex shrunk by
    the factor 1 - total t, with that factor to the power m - 1 of its volume; otherwise the part is empty.  (These
    parts are closed under intersection and generate the measurable sets, so their chances determine the law.) *)
Definition uniform_on_simplex (m : nat) (point : list R -> list R) : Prop :=
  forall t, length t = m -> List.Forall (fun x => 0 <= x) t ->
    (total t < 1 -> chance (m - 1) (fun us => Forall2 Rlt t (point us)) ((1 - total t) ^ (m - 1))) /\
    (1 <= total t -> chance (m - 1) (fun us => Forall2 Rlt t (point us)) 0).

(** The draws [us] in the order in which they are made; they are named by the number of coordinates that are still to
    be determined: [left] for the first one, left - 1 for the second, ... *)
Definition in_order (left : nat) (us : list R) (j : nat) : R := nth (left - j) us 0.
