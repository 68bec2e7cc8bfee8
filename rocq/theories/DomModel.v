(** Model of the dominance tests and non-dominated filters.
    Source: evotools/ea_utils.py, metrics/metrics_utils.py,
    algorithms/NSGAII/NSGAII.py, algorithms/OMOPSO/OMOPSO.py *)
From Verif Require Import Spec.
Local Open Scope Z_scope.

(** evotools/ea_utils.py:31 - the tuple (-1, 0, 1) indexed by (i <= j) + (i < j). *)
Definition ndir (i j : Z) : Z :=
  nth ((if (i <=? j)%Z then 1 else 0) + (if (i <? j)%Z then 1 else 0))%nat [-1; 0; 1] 0.

(** evotools/ea_utils.py:29-36 - the loop over zip(xs, ys) carrying [direction];
    zip stops at the shorter vector.  float(x) is the identity on floats. *)
Fixpoint cmp_loop (direction : Z) (xs ys : vec) : Z :=
  match xs, ys with
  | i :: xs', j :: ys' =>
      let nd := ndir i j in
      if negb (nd =? 0) then
        if negb (direction =? 0) && negb (nd =? direction) then 0
        else cmp_loop nd xs' ys'
      else cmp_loop direction xs' ys'
  | _, _ => direction
  end.

(** evotools/ea_utils.py:23-36 *)
Definition domination_cmp (xs ys : vec) : Z := cmp_loop 0 xs ys.

(** evotools/ea_utils.py:14-20 *)
Definition dominates (xs ys : vec) : bool := 0 <? domination_cmp xs ys.

(** algorithms/NSGAII/NSGAII.py:11-12 - all(a <= b) over zipped objective values.
    The dictionaries are modelled by their value lists in the (common) insertion order. *)
Fixpoint nsga_dominates_weak (x y : vec) : bool :=
  match x, y with
  | a :: x', b :: y' => (a <=? b) && nsga_dominates_weak x' y'
  | _, _ => true
  end.

(** algorithms/NSGAII/NSGAII.py:15-25 *)
Definition nsga_dominates (x y : vec) : bool :=
  nsga_dominates_weak x y && negb (nsga_dominates_weak y x).

(** algorithms/OMOPSO/OMOPSO.py:250-258 - loop over the receiver's objectives; the
    comparison p2 < self / (1 + eta) with eta = en/ed (ed > 0, en >= 0) is
    cross-multiplied: p2 * (ed + en) < self * ed.  [None] = IndexError when p2 has
    fewer objectives. *)
Fixpoint omopso_dom_loop (en ed : Z) (at_least_one : bool) (self p2 : vec) : option bool :=
  match self with
  | [] => Some at_least_one
  | s :: self' =>
      match p2 with
      | [] => None
      | p :: p2' =>
          if p * (ed + en) <? s * ed then Some false
          else if s * ed <? p * (ed + en) then omopso_dom_loop en ed true self' p2'
          else omopso_dom_loop en ed at_least_one self' p2'
      end
  end.

(** algorithms/OMOPSO/OMOPSO.py:250-258. *)
Definition omopso_dominates (en ed : Z) (self p2 : vec) : option bool :=
  omopso_dom_loop en ed false self p2.

(** metrics/metrics_utils.py:114-127 - one iteration of the outer loop: the inner loop
    over [not_dominated] (119-123) and the append (124-126). *)
Definition filter_step {A} (f : A -> vec) (not_dominated : list A) (ind : A) : list A :=
  let '(kept, dominated_by_sth) :=
    fold_left
      (fun '(kept, dom) nd_ind =>
         ((if negb (dominates (f ind) (f nd_ind)) then kept ++ [nd_ind] else kept),
          (if dominates (f nd_ind) (f ind) then true else dom)))
      not_dominated ([], false) in
  if negb dominated_by_sth then kept ++ [ind] else kept.

(** metrics/metrics_utils.py:114-127.  In the code the members are the vectors
    themselves ([f] = identity); [f] is kept general so that callers can reuse it. *)
Definition filter_not_dominated {A} (f : A -> vec) (ind_set : list A) : list A :=
  fold_left (filter_step f) ind_set [].

(** metrics/metrics_utils.py:101-111: equality of tuples of floats, as dictionary keys. *)
Definition vec_eqb (a b : vec) : bool := if list_eq_dec Z.eq_dec a b then true else false.

(** metrics/metrics_utils.py:101-111 - the dictionary keyed by tuple(ind) keeps the
    first insertion position of each distinct vector; the value only depends on the key. *)
Definition dict_keys (l : list vec) : list vec :=
  fold_left (fun ks v => if existsb (vec_eqb v) ks then ks else ks ++ [v]) l [].

(** metrics/metrics_utils.py:101-111. *)
Definition filter_not_dominated2 (ind_set : list vec) : list vec :=
  filter (fun ind => forallb (fun other => negb (dominates other ind)) ind_set)
         (dict_keys ind_set).

(** ---- evotools/ea_utils.py: paretofront_layers ---- *)

(** itertools.permutations(lst, 2): all ordered pairs of distinct positions, in
    lexicographic order (line 57). *)
Definition index_pairs (n : nat) : list (nat * nat) :=
  filter (fun p => negb (fst p =? snd p)%nat) (list_prod (seq 0 n) (seq 0 n)).

(** j[2] += 1 (line 59). *)
Fixpoint bump (j : nat) (cs : list nat) {struct cs} : list nat :=
  match cs with
  | [] => []
  | c :: cs' => match j with O => S c :: cs' | S j' => c :: bump j' cs' end
  end.

(** lines 57-59: the domtd counters of the records [ind, f_ind, 0] after the double loop. *)
Definition dom_counts {A} (f : A -> vec) (lst : list A) : list nat :=
  fold_left
    (fun cs '(i, j) =>
       match nth_error lst i, nth_error lst j with
       | Some a, Some b => if dominates (f a) (f b) then bump j cs else cs
       | _, _ => cs
       end)
    (index_pairs (length lst)) (repeat 0%nat (length lst)).

(** lines 60-61: the yielded layer and the records kept for the next round. *)
Definition layer_of {A} (f : A -> vec) (lst : list A) : list A :=
  map fst (filter (fun p => (snd p =? 0)%nat) (combine lst (dom_counts f lst))).
(** line 61: the records kept for the next round. *)
Definition rest_of {A} (f : A -> vec) (lst : list A) : list A :=
  map fst (filter (fun p => (0 <? snd p)%nat) (combine lst (dom_counts f lst))).

(** lines 56-61: the while loop; [None] is the out-of-fuel value (non-termination).
    The TypeError workaround (48-54) for callers passing a list of functions is not modelled;
    the fitness of an individual is computed once (47), modelled by a pure [f]. *)
Fixpoint layers_loop {A} (f : A -> vec) (fuel : nat) (lst : list A) : option (list (list A)) :=
  match lst with
  | [] => Some []
  | _ =>
      match fuel with
      | O => None
      | S fuel' =>
          match layers_loop f fuel' (rest_of f lst) with
          | Some ls => Some (layer_of f lst :: ls)
          | None => None
          end
      end
  end.

(** evotools/ea_utils.py:39-61. *)
Definition paretofront_layers {A} (f : A -> vec) (lst : list A) : option (list (list A)) :=
  layers_loop f (length lst) lst.
