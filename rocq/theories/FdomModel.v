(** The dominance tests on IEEE double precision numbers, infinities and nan included.
    Source: evotools/ea_utils.py, metrics/metrics_utils.py, algorithms/NSGAII/NSGAII.py, algorithms/OMOPSO/OMOPSO.py.
    [Bleb] and [Bltb] are the comparisons of the IEEE standard (false as soon as one side is nan). *)
From Coq Require Import List ZArith Bool.
From Flocq Require Import BinarySingleNaN.
Import ListNotations.
Local Open Scope Z_scope.

(** Python's float: what all the functions below compare (e.g. NSGAII.py:11-25). *)
Definition double := binary_float 53 1024.
(** evotools/ea_utils.py:23: xs and ys. *)
Definition fvec := list double.

(** evotools/ea_utils.py:31 - the tuple (-1, 0, 1) indexed by (i <= j) + (i < j). *)
Definition f_ndir (i j : double) : Z :=
  nth ((if Bleb i j then 1 else 0) + (if Bltb i j then 1 else 0))%nat [-1; 0; 1] 0.

(** evotools/ea_utils.py:29-36 *)
Fixpoint f_cmp_loop (direction : Z) (xs ys : fvec) : Z :=
  match xs, ys with
  | i :: xs', j :: ys' =>
      let nd := f_ndir i j in
      if negb (nd =? 0) then
        if negb (direction =? 0) && negb (nd =? direction) then 0
        else f_cmp_loop nd xs' ys'
      else f_cmp_loop direction xs' ys'
  | _, _ => direction
  end.

(** evotools/ea_utils.py:23-36 *)
Definition f_domination_cmp (xs ys : fvec) : Z := f_cmp_loop 0 xs ys.

(** evotools/ea_utils.py:14-20 *)
Definition f_dominates (xs ys : fvec) : bool := 0 <? f_domination_cmp xs ys.

(** algorithms/NSGAII/NSGAII.py:11-12 *)
Fixpoint f_nsga_weak (x y : fvec) : bool :=
  match x, y with
  | a :: x', b :: y' => Bleb a b && f_nsga_weak x' y'
  | _, _ => true
  end.
(** algorithms/NSGAII/NSGAII.py:15-25 *)
Definition f_nsga_dominates (x y : fvec) : bool := f_nsga_weak x y && negb (f_nsga_weak y x).

(** algorithms/OMOPSO/OMOPSO.py:250-258 with eta = 0 (dividing by 1.0 is exact); None = IndexError. *)
Fixpoint f_omopso_loop (at_least_one : bool) (self p2 : fvec) : option bool :=
  match self with
  | [] => Some at_least_one
  | s :: self' =>
      match p2 with
      | [] => None
      | p :: p2' =>
          if Bltb p s then Some false
          else if Bltb s p then f_omopso_loop true self' p2'
          else f_omopso_loop at_least_one self' p2'
      end
  end.
(** algorithms/OMOPSO/OMOPSO.py:250-258 with eta = 0. *)
Definition f_omopso_dominates (self p2 : fvec) : option bool := f_omopso_loop false self p2.

(** metrics/metrics_utils.py:114-127 *)
Definition f_filter_step (not_dominated : list fvec) (ind : fvec) : list fvec :=
  let '(kept, dominated_by_sth) :=
    fold_left
      (fun '(kept, dom) nd_ind =>
         ((if negb (f_dominates ind nd_ind) then kept ++ [nd_ind] else kept),
          (if f_dominates nd_ind ind then true else dom)))
      not_dominated ([], false) in
  if negb dominated_by_sth then kept ++ [ind] else kept.
(** metrics/metrics_utils.py:114-127. *)
Definition f_filter_not_dominated (ind_set : list fvec) : list fvec := fold_left f_filter_step ind_set [].
