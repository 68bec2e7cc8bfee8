(** Specification vocabulary for the NSGA-II theorems. *)
From Verif Require Import Spec NsgaModel.
From Coq Require Import QArith.
Local Open Scope nat_scope.

(** Crowding distance [a] is at least [b]. *)
Definition crowd_ge (a b : dist) : Prop :=
  match a, b with
  | Inf, _ => True
  | Fin _, Inf => False
  | Fin p, Fin q => (q <= p)%Q
  end.

Definition crowd_nonneg (a : dist) : Prop :=
  match a with Inf => True | Fin q => (0 <= q)%Q end.

(** [x] has the smallest value of objective [j] among the members of [front]. *)
Definition best_in (obj : nat -> vec) (j : nat) (front : list nat) (x : nat) : Prop :=
  In x front /\ forall y, In y front -> (nth j (obj x) 0 <= nth j (obj y) 0)%Z.

Definition is_step (o : op) : bool := match o with Step _ => true | Finalize => false end.
Definition steps_in (ops : list op) : nat := length (filter is_step ops).

(** The value of objective j of an individual. *)
Definition value_of (obj : nat -> vec) (j x : nat) : Z := nth j (obj x) 0%Z.

(** [l] lists the members of the front from best to worst in objective j. *)
Definition ordered_by (obj : nat -> vec) (j : nat) (front l : list nat) : Prop :=
  Permutation l front /\ StronglySorted (fun a b => (value_of obj j a <= value_of obj j b)%Z) l.

(** The range of objective j over a front listed from best to worst. *)
Definition value_range (obj : nat -> vec) (j : nat) (l : list nat) : Z :=
  (value_of obj j (last l 0%nat) - value_of obj j (hd 0%nat l))%Z.

(** The share of objective j in the crowding distance of [x] when [l] lists the front from best to
    worst: the gap between its two neighbours (or twice the gap to the only neighbour of the worst
    member) relative to the range. *)
Inductive crowding_share (eps : Q) (obj : nat -> vec) (j : nat) (l : list nat) (x : nat) : Q -> Prop :=
| share_inner : forall l1 p n l2, l = l1 ++ p :: x :: n :: l2 ->
    crowding_share eps obj j l x
      (inject_Z (value_of obj j n - value_of obj j p) / (inject_Z (value_range obj j l) + eps))%Q
| share_worst : forall l1 p, l = l1 ++ [p; x] ->
    crowding_share eps obj j l x
      (2 * inject_Z (value_of obj j x - value_of obj j p) / (inject_Z (value_range obj j l) + eps))%Q.
