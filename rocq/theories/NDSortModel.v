(** Model of the counting non-dominated sort shared by NSGA-II, SMS-EMOA, NSLS and
    (with theta-dominance) NSGA-III.
    Source: algorithms/NSGAII/NSGAII.py:118-142, algorithms/SMSEMOA/SMSEMOA.py:113-137,
    algorithms/NSLS/NSLS.py:134-160, algorithms/NSGAIII/NSGAIII.py:319-352.

    Individuals are Python objects hashed by identity; an identity is a [nat].  The
    dictionaries keyed by individuals are total functions on identities (a defaultdict
    returns its default on missing keys). *)
From Verif Require Import Spec DomModel.

(** d[k] = v on a dictionary. NSGAII.py:119-122. *)
Definition upd {B} (m : nat -> B) (k : nat) (v : B) : nat -> B :=
  fun i => if i =? k then v else m i.

Section Counting.
  (** dominates(x, y) on individuals. *)
  Variable dom : nat -> nat -> bool.
  (** Iteration order of the Python set dominated_by[x], given the members in insertion
      order; the property theorems quantify over it. *)
  Variable set_iter : nat -> list nat -> list nat.

  (** NSGAII.py:124-128 (SMSEMOA.py:119-123, NSLS.py:141-145, NSGAIII.py:326-330): the
      inner loop for one [x], giving dominated_by[x] and how_many_dominates[x]. *)
  Definition compare_with_all (individuals : list nat) (x : nat) : list nat * Z :=
    fold_left
      (fun '(ds, c) y =>
         if dom x y then (ds ++ [y], c)
         else if dom y x then (ds, c + 1)%Z
         else (ds, c))
      individuals ([], 0%Z).

  (** NSGAII.py:123-131: how_many_dominates after the double loop. *)
  Definition initial_counts (individuals : list nat) : nat -> Z :=
    fold_left (fun m x => upd m x (snd (compare_with_all individuals x)))
              individuals (fun _ => 0%Z).

  (** NSGAII.py:124-126: dominated_by[x]. *)
  Definition dominated_by (individuals : list nat) (x : nat) : list nat :=
    fst (compare_with_all individuals x).

  (** NSGAII.py:129-131: front[1]. *)
  Definition first_front (individuals : list nat) : list nat :=
    filter (fun x => (snd (compare_with_all individuals x) =? 0)%Z) individuals.

  (** NSGAII.py:138-141: one decrement; [next] is front[front_no + 1]. *)
  Definition decrement (st : (nat -> Z) * list nat) (y : nat) : (nat -> Z) * list nat :=
    let '(counts, next) := st in
    let c := (counts y - 1)%Z in
    (upd counts y c, if (c =? 0)%Z then next ++ [y] else next).

  (** NSGAII.py:136-141: both loops over one front. *)
  Definition process_front (individuals front : list nat) (counts : nat -> Z)
    : (nat -> Z) * list nat :=
    fold_left
      (fun st x => fold_left decrement (set_iter x (dominated_by individuals x)) st)
      front (counts, []).

  (** NSGAII.py:132-142: the while loop; [None] is the out-of-fuel value.  The result lists
      front[1], front[2], ... without the empty front that ends the loop (SMSEMOA.py:136
      deletes it, NSGAII.py:147 stops at it). *)
  Fixpoint fronts_loop (fuel : nat) (individuals front : list nat) (counts : nat -> Z)
    : option (list (list nat)) :=
    match front with
    | [] => Some []
    | _ =>
        match fuel with
        | O => None
        | S fuel' =>
            let '(counts', next) := process_front individuals front counts in
            match fronts_loop fuel' individuals next counts' with
            | Some fs => Some (front :: fs)
            | None => None
            end
        end
    end.

  (** The whole function; the fuel is never the reason for stopping (C11).
      NSGAII.py:118-142, SMSEMOA.py:113-137, NSLS.py:134-160, NSGAIII.py:319-345. *)
  Definition nd_sort_gen (individuals : list nat) : option (list (list nat)) :=
    fronts_loop (length individuals) individuals
                (first_front individuals) (initial_counts individuals).
End Counting.

(** algorithms/NSGAII/NSGAII.py:118-142; [obj] gives the objective vector of an individual. *)
Definition nsgaii_nd_sort (obj : nat -> vec) :=
  nd_sort_gen (fun x y => nsga_dominates (obj x) (obj y)).

(** algorithms/NSLS/NSLS.py:134-160; its dominates is that of NSGAII.py (line 142). *)
Definition nsls_nd_sort (obj : nat -> vec) :=
  nd_sort_gen (fun x y => nsga_dominates (obj x) (obj y)).

(** algorithms/SMSEMOA/SMSEMOA.py:113-137; its dominates is evotools.ea_utils.dominates
    applied to the objective vectors. *)
Definition smsemoa_nd_sort (obj : nat -> vec) :=
  nd_sort_gen (fun x y => dominates (obj x) (obj y)).

(** algorithms/NSGAIII/NSGAIII.py:348-352: same cluster and strictly smaller theta fitness. *)
Definition theta_dominates (cluster : nat -> nat) (theta : nat -> Z) (x y : nat) : bool :=
  (cluster x =? cluster y) && (theta x <? theta y)%Z.

(** algorithms/NSGAIII/NSGAIII.py:319-345 *)
Definition theta_nd_sort (cluster : nat -> nat) (theta : nat -> Z) :=
  nd_sort_gen (theta_dominates cluster theta).

(** NSGAII.py:130 and 140 (NSLS.py:147, 158): nsga_rank[x] is set to k exactly when x is
    appended to front[k]; 0 is the defaultdict's value for other objects. *)
Fixpoint front_number_from (k : nat) (fronts : list (list nat)) (x : nat) : nat :=
  match fronts with
  | [] => 0
  | f :: fs => if existsb (Nat.eqb x) f then k else front_number_from (S k) fs x
  end.
(** NSGAII.py:130, 140; NSLS.py:147, 158. *)
Definition front_number := front_number_from 1.
