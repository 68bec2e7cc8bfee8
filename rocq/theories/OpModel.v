(** The variation operators with their actual formulas, over the real numbers (no rounding).
    Source: algorithms/base/drivertools.py, algorithms/NSGAIII/NSGAIII.py, algorithms/OMOPSO/OMOPSO.py.
    Random draws are oracle arguments indexed by the gene they are drawn for. *)
From Coq Require Import Reals List.
Import ListNotations.
Local Open Scope R_scope.

(** drivertools.py:10: xs, as real numbers. *)
Definition rvec := list R.
(** drivertools.py:10: dims. *)
Definition rbox := list (R * R).

(** x ** y and pow(x, y) on floats.  None: 0.0 to a negative power (ZeroDivisionError), or a
    negative base, whose result is a complex number that the following code cannot order
    (integral exponents of a negative base, which do work, are counted as failures too).
    drivertools.py:29-39, 80-97, 111-116. *)
Definition py_pow (x y : R) : option R :=
  if Rlt_dec x 0 then None
  else if Req_EM_T x 0
       then (if Rlt_dec y 0 then None else if Req_EM_T y 0 then Some 1 else Some 0)
       else Some (Rpower x y).

(** x / y; None = ZeroDivisionError. drivertools.py:19-22, 80-97, 111-116. *)
Definition py_div (x y : R) : option R := if Req_EM_T y 0 then None else Some (x / y).

Notation "'let?' x ':=' a 'in' b" := (match a with Some x => b | None => None end)
  (at level 200, x name, a at level 100, b at level 200).

(** l[i] = v for an index inside the list. drivertools.py:44. *)
Fixpoint put (i : nat) (v : R) (l : rvec) {struct l} : rvec :=
  match l with
  | [] => []
  | a :: l' => match i with O => v :: l' | S i' => a :: put i' v l' end
  end.

(** min(ub, max(lb, y)) - drivertools.py:42, 100-101. *)
Definition rclamp (lb ub y : R) : R := Rmin ub (Rmax lb y).

Section Operators.
  (** EPSILON, line 6. *)
  Variable eps : R.

  (** drivertools.py:19-41 (NSGAIII.py:453-469 without the try blocks): the mutated gene before
      line 42.  The try blocks only catch FloatingPointError, which float arithmetic does not raise
      (overflow of pow is OverflowError; the base is at most 1 here). *)
  Definition perturbed (eta lb ub y rnd : R) : option R :=
    let? delta1 := py_div (y - lb) (ub - lb + eps) in
    let? delta2 := py_div (ub - y) (ub - lb + eps) in
    let? mut_pow := py_div 1 (eta + 1) in
    let? delta_q :=
      (if Rle_dec rnd (1 / 2) then
         let xy := 1 - delta1 in
         let? p := py_pow xy (eta + 1) in
         let val := 2 * rnd + (1 - 2 * rnd) * p in
         let? q := py_pow val mut_pow in Some (q - 1)
       else
         let xy := 1 - delta2 in
         let? p := py_pow xy (eta + 1) in
         let val := 2 * (1 - rnd) + 2 * (rnd - 1 / 2) * p in
         let? q := py_pow val mut_pow in Some (1 - q)) in
    Some (y + delta_q * (ub - lb)).

  (** drivertools.py:10-45; [sel] and [rnd] are the draws of lines 13 and 24.  None = an exception. *)
  Fixpoint rmutate_loop (mutation_rate eta : R) (sel rnd : nat -> R) (xs : rvec) (i : nat) (dims : rbox)
           (new_xs : rvec) : option rvec :=
    match dims with
    | [] => Some new_xs
    | (lb, ub) :: dims' =>
        if Rlt_dec mutation_rate (sel i) then rmutate_loop mutation_rate eta sel rnd xs (S i) dims' new_xs
        else
          let? y := nth_error xs i in
          let? y' := perturbed eta lb ub y (rnd i) in
          rmutate_loop mutation_rate eta sel rnd xs (S i) dims' (put i (rclamp lb ub y') new_xs)
    end.
  (** drivertools.py:10-45. *)
  Definition rmutate (xs : rvec) (dims : rbox) (mutation_rate eta : R) (sel rnd : nat -> R) : option rvec :=
    rmutate_loop mutation_rate eta sel rnd xs 0 dims xs.

  (** drivertools.py:111-116; NSGAIII.py:437-442. *)
  Definition get_beta_q (rand alpha eta : R) : option R :=
    let? t := py_div 1 alpha in
    let? e := py_div 1 (eta + 1) in
    if Rle_dec rand t then py_pow (rand * alpha) e
    else let? b := py_div 1 (2 - rand * alpha) in py_pow b e.

  (** drivertools.py:80-87; NSGAIII.py:411-416: child a before the boundary check. *)
  Definition child_a (eta lb y1 y2 rand : R) : option R :=
    let? ratio := py_div (2 * (y1 - lb)) (y2 - y1 + eps) in
    let beta := 1 + ratio in
    let? p := py_pow beta (- (eta + 1)) in
    let alpha := 2 - p in
    let? beta_q := get_beta_q rand alpha eta in
    Some (1 / 2 * ((y1 + y2) - beta_q * (y2 - y1))).

  (** drivertools.py:90-97; NSGAIII.py:418-423: child b before the boundary check. *)
  Definition child_b (eta ub y1 y2 rand : R) : option R :=
    let? ratio := py_div (2 * (ub - y2)) (y2 - y1 + eps) in
    let beta := 1 + ratio in
    let? p := py_pow beta (- (eta + 1)) in
    let alpha := 2 - p in
    let? beta_q := get_beta_q rand alpha eta in
    Some (1 / 2 * ((y1 + y2) + beta_q * (y2 - y1))).

  (** drivertools.py:66-106; NSGAIII.py:398-432.  [skip], [rand], [swap]: the draws of lines 67, 77
      and 103. *)
  Fixpoint rsbx_loop (eta : R) (skip rand swap : nat -> R) (xs ys : rvec) (i : nat) (dims : rbox)
           (new_xs new_ys : rvec) : option (rvec * rvec) :=
    match dims with
    | [] => Some (new_xs, new_ys)
    | (lb, ub) :: dims' =>
        if Rlt_dec (1 / 2) (skip i) then rsbx_loop eta skip rand swap xs ys (S i) dims' new_xs new_ys
        else
          let? x := nth_error xs i in
          let? y := nth_error ys i in
          if Rle_dec (Rabs (x - y)) eps then rsbx_loop eta skip rand swap xs ys (S i) dims' new_xs new_ys
          else
            let y1 := Rmin x y in
            let y2 := Rmax x y in
            let? a := child_a eta lb y1 y2 (rand i) in
            let? b := child_b eta ub y1 y2 (rand i) in
            let a := rclamp lb ub a in
            let b := rclamp lb ub b in
            if Rlt_dec (1 / 2) (swap i)
            then rsbx_loop eta skip rand swap xs ys (S i) dims' (put i b new_xs) (put i a new_ys)
            else rsbx_loop eta skip rand swap xs ys (S i) dims' (put i a new_xs) (put i b new_ys)
    end.

  (** drivertools.py:59-108; [r0] is the draw of line 63, [pick] the choice of line 64 or 108
      (true = new_xs). *)
  Definition rcrossover (xs ys : rvec) (dims : rbox) (crossover_rate eta r0 : R) (pick : bool)
             (skip rand swap : nat -> R) : option rvec :=
    if Rlt_dec crossover_rate r0 then Some (if pick then xs else ys)
    else
      let? c := rsbx_loop eta skip rand swap xs ys 0 dims xs ys in
      Some (if pick then fst c else snd c).
End Operators.

(** OMOPSO.py:218-223: NonUniformMutation.delta(y) at the given progress and draw. *)
Definition non_uniform_delta (progress mutation_perturbation rand y : R) : option R :=
  let prog := 1 - progress in
  let? perturbation := py_pow prog mutation_perturbation in
  let? p := py_pow rand perturbation in
  Some (y * (1 - p)).

(** OMOPSO.py:211-216: NonUniformMutation.do_mutation on a coordinate [x] with bounds (lb, ub);
    [up]: the draw of line 214 is below 0.5. *)
Definition non_uniform_mutation (progress mutation_perturbation lb ub : R) (up : bool) (rand x : R) : option R :=
  if up then non_uniform_delta progress mutation_perturbation rand (ub - x)
  else non_uniform_delta progress mutation_perturbation rand (lb - x).

(** OMOPSO.py:186-193: Mutation.__call__ with that do_mutation; [touch i]: the draw of line 188 is
    below the probability. *)
Fixpoint non_uniform_call (progress mutation_perturbation : R) (touch up : nat -> bool) (rand : nat -> R)
         (i : nat) (dims : rbox) (value : rvec) : option rvec :=
  match dims with
  | [] => Some value
  | (lb, ub) :: dims' =>
      if touch i then
        match value with
        | [] => None
        | x :: value' =>
            let? m := non_uniform_mutation progress mutation_perturbation lb ub (up i) (rand i) x in
            let? vs := non_uniform_call progress mutation_perturbation touch up rand (S i) dims' value' in
            Some (Rmin (Rmax (x + m) lb) ub :: vs)
        end
      else
        match value with
        | [] => non_uniform_call progress mutation_perturbation touch up rand (S i) dims' []
        | x :: value' =>
            let? vs := non_uniform_call progress mutation_perturbation touch up rand (S i) dims' value' in
            Some (x :: vs)
        end
  end.
