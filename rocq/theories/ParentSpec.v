(** How likely an individual wins a mating tournament. *)
From Verif Require Import Spec NsgaModel NsgaSpec.
From Coq Require Import QArith.
Local Open Scope nat_scope.

(** Of the members of [l], exactly [n] have property [P]. *)
Definition number_of (P : nat -> Prop) (l : list nat) (n : nat) : Prop :=
  exists L, NoDup L /\ (forall y, In y L <-> In y l /\ P y) /\ length L = n.

(** The number of pairs of positions below [n], of those in [allowed], for which [winner] names [x]. *)
Definition wins (n : nat) (allowed : nat -> nat -> bool) (winner : nat -> nat -> option nat) (x : nat) : nat :=
  length (filter (fun ij => allowed (fst ij) (snd ij) &&
                            match winner (fst ij) (snd ij) with Some w => w =? x | None => false end)
                 (list_prod (seq 0 n) (seq 0 n))).

(** The chance that [x] wins when both positions are drawn uniformly, independently and with replacement, and the coin
    shows heads (true) with chance [p]. *)
Definition chance_with_coin (p : Q) (n : nat) (winner : bool -> nat -> nat -> option nat) (x : nat) : Q :=
  ((p * inject_Z (Z.of_nat (wins n (fun _ _ => true) (winner true) x))
    + (1 - p) * inject_Z (Z.of_nat (wins n (fun _ _ => true) (winner false) x))) / inject_Z (Z.of_nat (n * n)))%Q.

(** The chance that [x] wins when two different positions are drawn, all ordered pairs being equally likely. *)
Definition chance_of_sample (n : nat) (winner : nat -> nat -> option nat) (x : nat) : Q :=
  (inject_Z (Z.of_nat (wins n (fun i j => negb (i =? j)) winner x)) / inject_Z (Z.of_nat (n * (n - 1))))%Q.

(** The draws [D] with those of tournament [k] replaced: the positions of the opponents and the coin. *)
Definition tournament_draws (D : step_draws) (k i j : nat) (c : bool) : step_draws :=
  {| choice := fun q => if q =? 2 * k then i else if q =? 2 * k + 1 then j else choice D q;
     coin := fun q => if q =? k then c else coin D q;
     cx_r0 := cx_r0 D; cx_pick := cx_pick D; cx_skip := cx_skip D; cx_rand := cx_rand D; cx_swap := cx_swap D;
     mu_sel := mu_sel D; mu_rnd := mu_rnd D |}.

(** Slot [k] of a mating pool that depends on the draws. *)
Definition slot (pool : step_draws -> option (list nat)) (D : step_draws) (k : nat) (c : bool) (i j : nat) : option nat :=
  match pool (tournament_draws D k i j c) with Some l => nth_error l k | None => None end.

(** NSGA-II: [a] is better than [b], by front and then by crowding distance. *)
Definition nsga_better (rank : nat -> nat) (d : nat -> dist) (a b : nat) : Prop :=
  rank a < rank b \/ (rank a = rank b /\ ~ crowd_ge (d b) (d a)).

Definition of_nat (n : nat) : Q := inject_Z (Z.of_nat n).
