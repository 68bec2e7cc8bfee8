(** Specification vocabulary for runs: the trajectory of a state machine and the time at which
    each of its steps finishes. *)
From Verif Require Import Spec.
Local Open Scope Z_scope.

(** The state after [k] uninterrupted steps from [s]. *)
Fixpoint after {S} (step : S -> S) (k : nat) (s : S) : S :=
  match k with O => s | Datatypes.S k' => after step k' (step s) end.

(** [k] is the number of steps needed to reach cost [b] from [s]. *)
Definition first_reaching {S} (step : S -> S) (cost : S -> Z) (b : Z) (s : S) (k : nat) : Prop :=
  b <= cost (after step k s) /\ forall j, (j < k)%nat -> cost (after step j s) < b.

(** The time at which step number [k] (from 0) finishes. *)
Definition finish_time (durs : list Z) (k : nat) : Z :=
  fold_right Z.add 0 (firstn (Datatypes.S k) durs).

(** The integers from [lo] to [hi] inclusive. *)
Definition zrange (lo hi : Z) : list Z := map (fun i => lo + Z.of_nat i) (seq 0 (Z.to_nat (hi - lo + 1))).
