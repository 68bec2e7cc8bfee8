(** The variation operators as they are computed on floating-point numbers: every elementary operation
    is followed by a rounding.
    Source: algorithms/base/drivertools.py, algorithms/NSGAIII/NSGAIII.py, algorithms/OMOPSO/OMOPSO.py.
    A floating-point number is the real number it stands for.  [rd] is the rounding of an elementary
    operation and [pw] the value pow returns where it is defined; what is assumed of them is in RndSpec.v.
    Simplified: +, -, * and / have no largest number (no infinities); pow does.
    Random draws are oracle arguments indexed by the gene they are drawn for. *)
From Coq Require Import Reals List.
From Verif Require Import OpModel.
Import ListNotations.
Local Open Scope R_scope.

Section Arithmetic.
  Variable rd : R -> R.
  Variable pw : R -> R -> R.
  (** The largest number. *)
  Variable top : R.
  (** EPSILON, drivertools.py:6. *)
  Variable eps : R.

  (** + on floats, rounded (drivertools.py:10-116). *)
  Definition fadd (x y : R) : R := rd (x + y).
  (** - on floats, rounded (drivertools.py:10-116). *)
  Definition fsub (x y : R) : R := rd (x - y).
  (** * on floats, rounded (drivertools.py:10-116). *)
  Definition fmul (x y : R) : R := rd (x * y).
  (** None: division by zero (ZeroDivisionError, or infinity where numpy's type is involved).
      drivertools.py:19-22, 80-97, 111-116. *)
  Definition fdiv (x y : R) : option R := if Req_EM_T y 0 then None else Some (rd (x / y)).
  (** None: ZeroDivisionError, OverflowError, or a complex number or nan.
      drivertools.py:29-39, 80-97, 111-116. *)
  Definition fpow (x y : R) : option R :=
    if Rlt_dec x 0 then None
    else if Req_EM_T x 0 then (if Rlt_dec y 0 then None else Some (pw x y))
    else if Rlt_dec top (pw x y) then None else Some (pw x y).

  (** drivertools.py:19-41; NSGAIII.py:453-467. *)
  Definition fperturbed (eta lb ub y rnd : R) : option R :=
    let? delta1 := fdiv (fsub y lb) (fadd (fsub ub lb) eps) in
    let? delta2 := fdiv (fsub ub y) (fadd (fsub ub lb) eps) in
    let? mut_pow := fdiv 1 (fadd eta 1) in
    let? delta_q :=
      (if Rle_dec rnd (1 / 2) then
         let xy := fsub 1 delta1 in
         let? p := fpow xy (fadd eta 1) in
         let val := fadd (fmul 2 rnd) (fmul (fsub 1 (fmul 2 rnd)) p) in
         let? q := fpow val mut_pow in Some (fsub q 1)
       else
         let xy := fsub 1 delta2 in
         let? p := fpow xy (fadd eta 1) in
         let val := fadd (fmul 2 (fsub 1 rnd)) (fmul (fmul 2 (fsub rnd (1 / 2))) p) in
         let? q := fpow val mut_pow in Some (fsub 1 q)) in
    Some (fadd y (fmul delta_q (fsub ub lb))).

  (** drivertools.py:10-45; [sel] and [rnd] are the draws of lines 13 and 24. *)
  Fixpoint fmutate_loop (mutation_rate eta : R) (sel rnd : nat -> R) (xs : rvec) (i : nat) (dims : rbox)
           (new_xs : rvec) : option rvec :=
    match dims with
    | [] => Some new_xs
    | (lb, ub) :: dims' =>
        if Rlt_dec mutation_rate (sel i) then fmutate_loop mutation_rate eta sel rnd xs (S i) dims' new_xs
        else
          let? y := nth_error xs i in
          let? y' := fperturbed eta lb ub y (rnd i) in
          fmutate_loop mutation_rate eta sel rnd xs (S i) dims' (put i (rclamp lb ub y') new_xs)
    end.
  (** drivertools.py:10-45. *)
  Definition fmutate (xs : rvec) (dims : rbox) (mutation_rate eta : R) (sel rnd : nat -> R) : option rvec :=
    fmutate_loop mutation_rate eta sel rnd xs 0 dims xs.

  (** drivertools.py:111-116; NSGAIII.py:437-442. *)
  Definition fbeta_q (rand alpha eta : R) : option R :=
    let? t := fdiv 1 alpha in
    let? e := fdiv 1 (fadd eta 1) in
    if Rle_dec rand t then fpow (fmul rand alpha) e
    else let? b := fdiv 1 (fsub 2 (fmul rand alpha)) in fpow b e.

  (** drivertools.py:80-87 and 90-97; NSGAIII.py:411-416 and 418-423: the spread of one child, from the
      distance of the nearer parent to its bound. *)
  Definition fspread (eta room y1 y2 rand : R) : option R :=
    let? ratio := fdiv (fmul 2 room) (fadd (fsub y2 y1) eps) in
    let? p := fpow (fadd 1 ratio) (- (fadd eta 1)) in
    fbeta_q rand (fsub 2 p) eta.
  (** drivertools.py:80-87. *)
  Definition fchild_a (eta lb y1 y2 rand : R) : option R :=
    let? beta_q := fspread eta (fsub y1 lb) y1 y2 rand in
    Some (fmul (1 / 2) (fsub (fadd y1 y2) (fmul beta_q (fsub y2 y1)))).
  (** drivertools.py:90-97. *)
  Definition fchild_b (eta ub y1 y2 rand : R) : option R :=
    let? beta_q := fspread eta (fsub ub y2) y1 y2 rand in
    Some (fmul (1 / 2) (fadd (fadd y1 y2) (fmul beta_q (fsub y2 y1)))).

  (** drivertools.py:66-106; NSGAIII.py:398-432.  [skip], [rand], [swap]: the draws of lines 67, 77
      and 103. *)
  Fixpoint fsbx_loop (eta : R) (skip rand swap : nat -> R) (xs ys : rvec) (i : nat) (dims : rbox)
           (new_xs new_ys : rvec) : option (rvec * rvec) :=
    match dims with
    | [] => Some (new_xs, new_ys)
    | (lb, ub) :: dims' =>
        if Rlt_dec (1 / 2) (skip i) then fsbx_loop eta skip rand swap xs ys (S i) dims' new_xs new_ys
        else
          let? x := nth_error xs i in
          let? y := nth_error ys i in
          if Rle_dec (Rabs (fsub x y)) eps then fsbx_loop eta skip rand swap xs ys (S i) dims' new_xs new_ys
          else
            let y1 := Rmin x y in
            let y2 := Rmax x y in
            let? a := fchild_a eta lb y1 y2 (rand i) in
            let? b := fchild_b eta ub y1 y2 (rand i) in
            let a := rclamp lb ub a in
            let b := rclamp lb ub b in
            if Rlt_dec (1 / 2) (swap i)
            then fsbx_loop eta skip rand swap xs ys (S i) dims' (put i b new_xs) (put i a new_ys)
            else fsbx_loop eta skip rand swap xs ys (S i) dims' (put i a new_xs) (put i b new_ys)
    end.

  (** drivertools.py:59-108; [r0] is the draw of line 63, [pick] the choice of line 64 or 108
      (true = new_xs). *)
  Definition fcrossover (xs ys : rvec) (dims : rbox) (crossover_rate eta r0 : R) (pick : bool)
             (skip rand swap : nat -> R) : option rvec :=
    if Rlt_dec crossover_rate r0 then Some (if pick then xs else ys)
    else
      let? c := fsbx_loop eta skip rand swap xs ys 0 dims xs ys in
      Some (if pick then fst c else snd c).

  (** OMOPSO.py:218-223 *)
  Definition fdelta (progress mutation_perturbation rand y : R) : option R :=
    let? perturbation := fpow (fsub 1 progress) mutation_perturbation in
    let? p := fpow rand perturbation in
    Some (fmul y (fsub 1 p)).

  (** OMOPSO.py:186-193 and 211-216: one coordinate touched by NonUniformMutation. *)
  Definition fnon_uniform (progress mutation_perturbation lb ub : R) (up : bool) (rand x : R) : option R :=
    let? m := fdelta progress mutation_perturbation rand (if up then fsub ub x else fsub lb x) in
    Some (Rmin (Rmax (fadd x m) lb) ub).
End Arithmetic.

(** evotools/ea_utils.py:7-11: [draws i j] is random.random() for coordinate j of vector i; random.uniform(a, b)
    is a + (b - a) * random() in CPython. *)
Definition funiform (rd : R -> R) (a b r : R) : R := rd (a + rd (rd (b - a) * r)).
(** evotools/ea_utils.py:7-11: one vector. *)
Fixpoint fvector (rd : R -> R) (draws : nat -> R) (j : nat) (dims : rbox) : rvec :=
  match dims with
  | [] => []
  | (a, b) :: dims' => funiform rd a b (draws j) :: fvector rd draws (S j) dims'
  end.
(** evotools/ea_utils.py:7-11. *)
Definition fpopulation (rd : R -> R) (count : nat) (dims : rbox) (draws : nat -> nat -> R) : list rvec :=
  map (fun i => fvector rd (draws i) 0 dims) (seq 0 count).
