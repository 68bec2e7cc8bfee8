(** Specification vocabulary for the job queue, stored results and shared state. *)
From Verif Require Import Spec WorkModel.
From Coq Require Import QArith.
Local Open Scope nat_scope.

(** [c] is the first case whose worker fails. *)
Definition first_failure {case} (worker_run : case -> option Q) (cases before : list case) (c : case) (after : list case) : Prop :=
  cases = before ++ c :: after /\ (forall x, In x before -> worker_run x <> None) /\ worker_run c = None.

(** What a population object yields when it is read again. *)
Definition contents (it : iterable) : list vec := match it with Sequence l => l | OneShot l => l end.

(** The k-th fitness list belongs to the k-th individual. *)
Definition matches (fitnesses : list (vec -> Z)) (s : stored) : Prop :=
  Forall2 (fun x fs => Forall2 (fun f y => y = f x) fitnesses fs) (contents (st_population s)) (st_fitnesses s).

(** No island model inside (islands as such are plain lists). *)
Definition has_no_chain (d : finalized_by) : Prop := match d with Chained _ => False | _ => True end.

(** The individuals of a driver. *)
Inductive member : finalized_by -> vec -> Prop :=
| in_list l x : In x l -> member (Listed l) x
| in_node ns l x : In l ns -> In x l -> member (Merged ns) x
| in_island is i x : In i is -> member i x -> member (Chained is) x.

(** [r'] is [r] with the first three entries divided by 2^k. *)
Definition halved (k : nat) (r r' : list Q) : Prop :=
  length r' = length r /\
  forall i, (nth i r' 0 == (if i <? 3 then nth i r 0 / inject_Z (2 ^ Z.of_nat k) else nth i r 0))%Q.

(** A driver somewhere inside another. *)
Inductive within : driver_tree -> driver_tree -> Prop :=
| direct d e : In e (inside d) -> within d e
| deeper d e x : In e (inside d) -> within e x -> within d x.
