(** The benchmark problems of problems/: objectives, bounds and the published
    Pareto fronts the metrics compare results with.

    Numbers are exact reals.  An operation that raises in Python (square root or
    fractional power of a negative number, division by zero, index out of range)
    yields [None].  The order of additions inside [sum] is immaterial over the
    reals.  UF11 and UF12 are in ProbRotModel.  Not modelled: the fronts of kursawe, UF11 and
    UF12 (read from data files). *)
From Coq Require Import Reals List.
Import ListNotations.
Local Open Scope R_scope.

(** an exception inside an objective (the functions in problems/X/problem.py) leaves it. *)
Definition bind {A B} (e : option A) (k : A -> option B) : option B :=
  match e with Some v => k v | None => None end.
Notation "'let*' v := e 'in' k" := (bind e (fun v => k))
  (at level 200, v name, e at level 100, k at level 200).

(** Python: [math.sqrt]. Used in e.g. problems/ZDT1/problem.py:54. *)
Definition py_sqrt (x : R) : option R := if Rle_dec 0 x then Some (sqrt x) else None.

(** Python: [math.pow] and [**] with a fractional exponent.  (A negative base gives a
    ValueError with the former and a complex number with the latter: both [None].).
    Used in e.g. problems/UF7/problem.py:23, problems/ZDT6/problem.py:56. *)
Definition py_pow (x y : R) : option R :=
  if Rlt_dec x 0 then None
  else if Req_EM_T x 0 then
    (if Rlt_dec 0 y then Some 0 else if Req_EM_T y 0 then Some 1 else None)
  else Some (Rpower x y).

(** Python: [/]. Used in e.g. problems/ZDT1/problem.py:54. *)
Definition py_div (x y : R) : option R := if Req_EM_T y 0 then None else Some (x / y).

(** Python: [x[i]] for a non-negative index. Used in e.g. problems/UF1/problem.py:25. *)
Definition get (x : list R) (i : nat) : option R := nth_error x i.

(** Python: [sum(f(a) for a in l)]. Used in e.g. problems/ZDT1/problem.py:50. *)
Fixpoint msum {A} (f : A -> option R) (l : list A) : option R :=
  match l with
  | [] => Some 0
  | a :: r => let* v := f a in let* s := msum f r in Some (v + s)
  end.

(** Python: [functools.reduce(operator.mul, [f(a) for a in l])]; TypeError on an
    empty list. Used in problems/UF3/problem.py:20-37, problems/UF6/problem.py:26-43. *)
Fixpoint mprod {A} (f : A -> option R) (l : list A) : option R :=
  match l with
  | [] => None
  | [a] => f a
  | a :: r => let* v := f a in let* s := mprod f r in Some (v * s)
  end.

(** Python: a list comprehension [[f(a) for a in l]].
    Used in e.g. problems/ZDT1/problem.py:57. *)
Fixpoint mmap {A B} (f : A -> option B) (l : list A) : option (list B) :=
  match l with
  | [] => Some []
  | a :: r => let* v := f a in let* s := mmap f r in Some (v :: s)
  end.

(** what a module offers: dims, fitnesses, pareto_front (e.g. problems/UF1/problem.py:7, 33-34). *)
Record problem := mk {
  p_dims : list (R * R);
  p_fits : list (list R -> option R);
  p_front : option (list (list R)) }.

(** Python: [[i / (p_no - 1) for i in range(p_no)]] (problems/ZDT1/problem.py:4-5 and
    the same lines of the other problems). *)
Definition points (p_no : nat) : list R := map (fun i => INR i / INR (p_no - 1)) (seq 0 p_no).

(** problems/ZDT1/problem.py:11-21 (the same in ZDT2, ZDT3, ZDT4 and ZDT6). *)
Definition subfit1 (f1 : R -> option R) (x : list R) : option R :=
  let* x0 := get x 0 in f1 x0.
(** problems/ZDT1/problem.py:11-13, 20-21. *)
Definition subfit2 (f1 : R -> option R) (g : list R -> option R) (h : R -> R -> option R)
    (x : list R) : option R :=
  let* y := g (tl x) in
  let* x0 := get x 0 in
  let* v := f1 x0 in
  let* w := h v y in
  Some (y * w).

(** [emoa_fitnesses] (problems/ZDT1/problem.py:24-34): all variables in [0, 1];
    [emoa_fitnesses2] (problems/ZDT4/problem.py:38-49): first in [0, 1], others in
    [-5, 5]. *)
Definition emoa f1 g h (dimensions : nat) front : problem :=
  mk (repeat (0, 1) dimensions) [subfit1 f1; subfit2 f1 g h] front.
(** problems/ZDT4/problem.py:39-48. *)
Definition emoa2 f1 g h (dimensions : nat) front : problem :=
  mk ((0, 1) :: repeat (-5, 5) (dimensions - 1)) [subfit1 f1; subfit2 f1 g h] front.

(** problems/ZDT1/problem.py:47-64. *)
Definition f1a (x : R) : option R := Some x.
(** problems/ZDT1/problem.py:49-50. *)
Definition ga (xs : list R) : option R :=
  let* s := msum Some xs in Some (1 + 0.3103448275862069 * s).
(** problems/ZDT1/problem.py:53-54. *)
Definition ha (f1 g : R) : option R :=
  let* d := py_div f1 g in let* r := py_sqrt (Rabs d) in Some (1 - r).
(** problems/ZDT1/problem.py:57, 64. *)
Definition front_sqrt (ps : list R) : option (list (list R)) :=
  mmap (fun x => let* r := py_sqrt x in Some [x; 1 - r]) ps.
(** problems/ZDT1/problem.py:57-64. *)
Definition ZDT1 : problem := emoa f1a ga ha 30 (front_sqrt (points 150)).

(** problems/ZDT2/problem.py:44-63. *)
Definition hb (f1 g : R) : option R := let* d := py_div f1 g in Some (1 - d ^ 2).
(** problems/ZDT2/problem.py:56-63. *)
Definition ZDT2 : problem :=
  emoa f1a ga hb 30 (Some (map (fun x => [x; 1 - x * x]) (points 150))).

(** problems/ZDT3/problem.py:46-87: the curve on 300 points, without the points that are
    not lower than their left neighbour, then without the points dominated by another
    listed one ([ea_utils.dominates], evotools/ea_utils.py; see DomModel for that loop). *)
Definition hc (f1 g : R) : option R :=
  let* d := py_div f1 g in
  let* r := py_sqrt (Rabs d) in
  Some (1 - r - d * sin (10 * PI * f1)).
(** problems/ZDT3/problem.py:72-75. *)
Definition c_curve (x : R) : option R :=
  let* r := py_sqrt x in Some (1 - r - x * sin (10 * PI * x)).
(** problems/ZDT3/problem.py:76-80. *)
Fixpoint descents (prev : R) (l : list (R * R)) : list (R * R) :=
  match l with
  | [] => []
  | (x, y) :: r => if Rle_dec prev y then descents y r else (x, y) :: descents y r
  end.
(** problems/ZDT3/problem.py:76-80. *)
Definition keep_descents (l : list (R * R)) : list (R * R) :=
  match l with [] => [] | (x, y) :: r => (x, y) :: descents y r end.
(** problems/ZDT3/problem.py:61 with evotools/ea_utils.py:14-36. *)
Definition dominates2 (p q : R * R) : bool :=
  if Rle_dec (fst p) (fst q) then
    if Rle_dec (snd p) (snd q) then
      if Rlt_dec (fst p) (fst q) then true
      else if Rlt_dec (snd p) (snd q) then true else false
    else false
  else false.
(** problems/ZDT3/problem.py:59-67. *)
Definition trim_dominated (l : list (R * R)) : list (R * R) :=
  filter (fun q => negb (existsb (fun p => dominates2 p q) l)) l.
(** problems/ZDT3/problem.py:72-87. *)
Definition front_c : option (list (list R)) :=
  let* c := mmap (fun x => let* y := c_curve x in Some (x, y)) (points 300) in
  Some (map (fun p => [fst p; snd p]) (trim_dominated (keep_descents c))).
(** problems/ZDT3/problem.py:72-87. *)
Definition ZDT3 : problem := emoa f1a ga hc 30 front_c.

(** problems/ZDT4/problem.py:52-70. *)
Definition gd (xs : list R) : option R :=
  let* s := msum (fun x => Some (x ^ 2 - 10 * cos (4 * PI * x))) xs in Some (91 + s).
(** problems/ZDT4/problem.py:66-70. *)
Definition ZDT4 : problem := emoa2 f1a gd ha 10 (front_sqrt (points 150)).

(** problems/ZDT6/problem.py:49-70. *)
Definition f1e (x : R) : R := 1 - exp (-4 * x) * sin (6 * PI * x) ^ 6.
(** problems/ZDT6/problem.py:55-56. *)
Definition ge (xs : list R) : option R :=
  let* s := msum Some xs in let* r := py_pow s 0.25 in Some (1 + 5.19615 * r).
(** problems/ZDT6/problem.py:63-70. *)
Definition ZDT6 : problem :=
  emoa (fun x => Some (f1e x)) ge hb 10
    (Some (map (fun x => [f1e x; 1 - f1e x * f1e x]) (points 150))).

(** The index sets [[j for j in range(2, n + 1) if j % 2]] and [... if not j % 2]
    (problems/UF1/problem.py:10-11 and UF2 to UF7). *)
Definition odd_j (n : nat) : list nat := filter (fun j => negb (Nat.eqb (j mod 2) 0)) (seq 2 (n - 1)).
(** problems/UF1/problem.py:11. *)
Definition even_j (n : nat) : list nat := filter (fun j => Nat.eqb (j mod 2) 0) (seq 2 (n - 1)).

(** The centre [sin(6 pi x0 + j pi / n)] of UF1, UF4, UF5, UF6, UF7.
    problems/UF4/problem.py:16-17. *)
Definition centre (n : nat) (x0 : R) (j : nat) : R := sin (6 * PI * x0 + INR j * PI / INR n).
(** problems/UF4/problem.py:16-17. *)
Definition yj (n : nat) (x : list R) (j : nat) : option R :=
  let* x0 := get x 0 in let* v := get x (j - 1) in Some (v - centre n x0 j).

(** problems/UF1/problem.py:14-34. *)
Definition uf1_base (x : list R) (J : list nat) : option R :=
  let* c := py_div 2 (INR (length J)) in
  let* s := msum (fun j => let* y := yj 30 x j in Some (y ^ 2)) J in
  Some (c * s).
(** problems/UF1/problem.py:7-34. *)
Definition UF1 : problem :=
  mk ((0, 1) :: repeat (-1, 1) 29)
    [ (fun x => let* x0 := get x 0 in let* b := uf1_base x (odd_j 30) in Some (x0 + b));
      (fun x => let* x0 := get x 0 in let* r := py_sqrt x0 in
                let* b := uf1_base x (even_j 30) in Some (1 - r + b)) ]
    (front_sqrt (points 150)).

(** problems/UF2/problem.py:14-45. *)
Definition uf2_centre (x0 : R) (j : nat) (trig : R -> R) : R :=
  (0.3 * x0 ^ 2 * cos (24 * PI * x0 + 4 * INR j * PI / 30) + 0.6 * x0)
  * trig (6 * PI * x0 + INR j * PI / 30).
(** problems/UF2/problem.py:14-32. *)
Definition uf2_base (x : list R) (J : list nat) (trig : R -> R) : option R :=
  let* c := py_div 2 (INR (length J)) in
  let* s := msum (fun j => let* x0 := get x 0 in let* v := get x (j - 1) in
                           Some ((v - uf2_centre x0 j trig) ^ 2)) J in
  Some (c * s).
(** problems/UF2/problem.py:7-45. *)
Definition UF2 : problem :=
  mk ((0, 1) :: repeat (-1, 1) 29)
    [ (fun x => let* x0 := get x 0 in let* b := uf2_base x (odd_j 30) cos in Some (x0 + b));
      (fun x => let* x0 := get x 0 in let* r := py_sqrt x0 in
                let* b := uf2_base x (even_j 30) sin in Some (1 - r + b)) ]
    (front_sqrt (points 150)).

(** problems/UF3/problem.py:16-50. *)
Definition uf3_y (x : list R) (j : nat) : option R :=
  let* x0 := get x 0 in
  let* v := get x (j - 1) in
  let* d := py_pow x0 (0.5 * (1 + 3 * (INR j - 2) / (INR 30 - 2))) in
  Some (v - d).
(** The part shared with UF6 (problems/UF6/problem.py:26-43): [Y] is the list of the
    [y(x, j)], combined by position with [J]. *)
Definition sum_prod_base (y : nat -> option R) (J : list nat) : option R :=
  let* Y := mmap y J in
  let* s := msum (fun v => Some (v ^ 2)) Y in
  let* p := mprod (fun vj : R * nat => let* r := py_sqrt (INR (snd vj)) in
                                       let* q := py_div (20 * fst vj * PI) r in
                                       Some (cos q)) (combine Y J) in
  py_div (2 * (4 * s - 2 * p + 2)) (INR (length J)).
(** problems/UF3/problem.py:9-50. *)
Definition UF3 : problem :=
  mk (repeat (0, 1) 30)
    [ (fun x => let* x0 := get x 0 in let* b := sum_prod_base (uf3_y x) (odd_j 30) in Some (x0 + b));
      (fun x => let* x0 := get x 0 in let* r := py_sqrt x0 in
                let* b := sum_prod_base (uf3_y x) (even_j 30) in Some (1 - r + b)) ]
    (front_sqrt (points 150)).

(** problems/UF4/problem.py:9-38. *)
Definition uf4_h (t : R) : option R := py_div (Rabs t) (1 + exp (2 * Rabs t)).
(** problems/UF4/problem.py:24-25. *)
Definition uf4_base (x : list R) (J : list nat) : option R :=
  let* s := msum (fun j => let* y := yj 30 x j in uf4_h y) J in
  py_div (2 * s) (INR (length J)).
(** problems/UF4/problem.py:9-38. *)
Definition UF4 : problem :=
  mk ((0, 1) :: repeat (-2, 2) 29)
    [ (fun x => let* x0 := get x 0 in let* b := uf4_base x (odd_j 30) in Some (x0 + b));
      (fun x => let* x0 := get x 0 in let* b := uf4_base x (even_j 30) in Some (1 - x0 ^ 2 + b)) ]
    (Some (map (fun f1 => [f1; 1 - f1 ^ 2]) (points 150))).

(** problems/UF5/problem.py:3-37. *)
Definition uf5_h (t : R) : R := 2 * t ^ 2 - cos (4 * PI * t) + 1.
(** problems/UF5/problem.py:21-24. *)
Definition uf5_base (x : list R) (J : list nat) : option R :=
  let* x0 := get x 0 in
  let* s := msum (fun j => let* y := yj 10 x j in Some (uf5_h y)) J in
  let* d := py_div (2 * s) (INR (length J)) in
  Some ((1 / (2 * 10) + 0.1) * Rabs (sin (2 * 10 * PI * x0)) + d).
(** problems/UF5/problem.py:6-37. *)
Definition UF5 : problem :=
  mk ((0, 1) :: repeat (-1, 1) 9)
    [ (fun x => let* x0 := get x 0 in let* b := uf5_base x (odd_j 10) in Some (x0 + b));
      (fun x => let* x0 := get x 0 in let* b := uf5_base x (even_j 10) in Some (1 - x0 + b)) ]
    (Some (map (fun i => [INR i / (2 * 10); 1 - INR i / (2 * 10)]) (seq 0 (2 * 10 + 1)))).

(** problems/UF6/problem.py:6-62.  [numpy.arange(a, b, s)] has ceil((b - a) / s) entries
    a, a + s, ...; here (b - a) / s = (1/60 + p_step) / p_step = 209/59, so four. *)
Definition p_step : R := (1 - 1 / (2 * 30)) / 150.
(** problems/UF6/problem.py:13: numpy.arange of four steps. *)
Definition arange4 (a s : R) : list R := [a; a + s; a + 2 * s; a + 3 * s].
(** problems/UF6/problem.py:10-14. *)
Definition uf6_points : list R :=
  flat_map (fun i => arange4 ((2 * INR i - 1) / (2 * 30)) p_step) (seq 1 30).
(** problems/UF6/problem.py:46-49. *)
Definition uf6_base (x : list R) (J : list nat) : option R :=
  let* x0 := get x 0 in
  let* b := sum_prod_base (yj 30 x) J in
  Some (Rmax 0 (2 * (1 / (2 * 30) + 0.1) * sin (2 * 30 * PI * x0)) + b).
(** problems/UF6/problem.py:15-62. *)
Definition UF6 : problem :=
  mk ((0, 1) :: repeat (-1, 1) 29)
    [ (fun x => let* x0 := get x 0 in let* b := uf6_base x (odd_j 30) in Some (x0 + b));
      (fun x => let* x0 := get x 0 in let* b := uf6_base x (even_j 30) in Some (1 - x0 + b)) ]
    (Some ([0; 1] :: map (fun x => [x; 1 - x]) uf6_points)).

(** problems/UF7/problem.py:7-32. *)
Definition uf7_base (x : list R) (J : list nat) : option R :=
  let* s := msum (fun j => let* y := yj 30 x j in Some (y ^ 2)) J in
  py_div (2 * s) (INR (length J)).
(** problems/UF7/problem.py:7-32. *)
Definition UF7 : problem :=
  mk ((0, 1) :: repeat (-1, 1) 29)
    [ (fun x => let* x0 := get x 0 in let* q := py_pow x0 0.2 in
                let* b := uf7_base x (odd_j 30) in Some (q + b));
      (fun x => let* x0 := get x 0 in let* q := py_pow x0 0.2 in
                let* b := uf7_base x (even_j 30) in Some (1 - q + b)) ]
    (Some (map (fun f1 => [f1; 1 - f1]) (points 150))).

(** The index sets of the three-objective problems (problems/UF8/problem.py:18-20, the
    same in UF9 and UF10), as coded: the remainders are tested for being non-zero. *)
Definition j1 (n : nat) : list nat := filter (fun j => negb (Nat.eqb ((j - 1) mod 3) 0)) (seq 3 (n - 2)).
(** problems/UF8/problem.py:19. *)
Definition j2 (n : nat) : list nat := filter (fun j => negb (Nat.eqb ((j - 2) mod 3) 0)) (seq 3 (n - 2)).
(** problems/UF8/problem.py:20. *)
Definition j3 (n : nat) : list nat := filter (fun j => negb (Nat.eqb (j mod 3) 0)) (seq 3 (n - 2)).

(** problems/UF8/problem.py:23-31 (the same in UF9; [yj] of problems/UF10/problem.py:25-26). *)
Definition y3 (x : list R) (j : nat) : option R :=
  let* x0 := get x 0 in
  let* x1 := get x 1 in
  let* v := get x (j - 1) in
  Some (v - 2 * x1 * sin (2 * PI * x0 + INR j * PI / 30)).
(** problems/UF8/problem.py:23-31. *)
Definition uf8_base (x : list R) (J : list nat) : option R :=
  let* s := msum (fun j => let* y := y3 x j in Some (y ^ 2)) J in
  py_div (2 * s) (INR (length J)).

(** [itertools.product] over [xy_series_no = int(math.sqrt(150)) = 12] points.
    problems/UF8/problem.py:5-15. *)
Definition grid12 : list (R * R) := list_prod (points 12) (points 12).

(** problems/UF8/problem.py:11-15 (the same in UF10). *)
Definition sphere_front : option (list (list R)) :=
  mmap (fun xy => let* z := py_pow (- fst xy ^ 2 - snd xy ^ 2 + 1) (1 / 3) in
                  Some [fst xy; snd xy; z])
    (filter (fun xy => if Rle_dec (fst xy ^ 2 + snd xy ^ 2) 1 then true else false) grid12).

(** problems/UF8/problem.py:34-52, problems/UF10/problem.py:29-52: the same objectives
    with another distance term. *)
Definition sphere_problem (base : list R -> list nat -> option R) : problem :=
  mk ([(0, 1); (0, 1)] ++ repeat (-2, 2) 28)
    [ (fun x => let* x0 := get x 0 in let* x1 := get x 1 in let* b := base x (j1 30) in
                Some (cos (0.5 * x0 * PI) * cos (0.5 * x1 * PI) + b));
      (fun x => let* x0 := get x 0 in let* x1 := get x 1 in let* b := base x (j2 30) in
                Some (cos (0.5 * x0 * PI) * sin (0.5 * x1 * PI) + b));
      (fun x => let* x0 := get x 0 in let* b := base x (j3 30) in
                Some (sin (0.5 * x0 * PI) + b)) ]
    sphere_front.
(** problems/UF8/problem.py:11-52. *)
Definition UF8 : problem := sphere_problem uf8_base.
(** problems/UF10/problem.py:25-31. *)
Definition uf10_base (x : list R) (J : list nat) : option R :=
  let* s := msum (fun j => let* y := y3 x j in Some (4 * y ^ 2 - cos (8 * PI * y) + 1)) J in
  py_div (2 * s) (INR (length J)).
(** problems/UF10/problem.py:12-52. *)
Definition UF10 : problem := sphere_problem uf10_base.

(** problems/UF9/problem.py:12-16 and 34-52. *)
Definition uf9_bump (x0 : R) : R := Rmax 0 ((1 + 0.1) * (1 - 4 * (2 * x0 - 1) ^ 2)).
(** problems/UF9/problem.py:12-52. *)
Definition UF9 : problem :=
  mk ([(0, 1); (0, 1)] ++ repeat (-2, 2) 28)
    [ (fun x => let* x0 := get x 0 in let* x1 := get x 1 in let* b := uf8_base x (j1 30) in
                Some (0.5 * (uf9_bump x0 + 2 * x0) * x1 + b));
      (fun x => let* x0 := get x 0 in let* x1 := get x 1 in let* b := uf8_base x (j2 30) in
                Some (0.5 * (uf9_bump x0 - 2 * x0 + 2) * x1 + b));
      (fun x => let* x1 := get x 1 in let* b := uf8_base x (j3 30) in
                Some (1 - x1 + b)) ]
    (Some (map (fun xz => [fst xz; 1 - fst xz - snd xz; snd xz])
       (filter (fun xz => if Rle_dec (fst xz) (0.25 * (1 - snd xz)) then true
                          else if Rle_dec (0.75 * (1 - snd xz)) (fst xz) then true else false)
          grid12))).

(** problems/ackley/problem.py:5-19. *)
Definition ackley_fit (x : list R) : option R :=
  let* x0 := get x 0 in
  let* x1 := get x 1 in
  let* r := py_sqrt (0.5 * (x0 ^ 2 + x1 ^ 2)) in
  Some (-20 * exp (-0.2 * r) - exp (0.5 * (cos (2 * PI * x0) + cos (2 * PI * x1))) + 20 + exp 1).
(** problems/ackley/problem.py:5-19. *)
Definition ackley : problem :=
  mk [(-1.5, 1.5); (-1.5, 1.5)] [ackley_fit; ackley_fit] (Some [[0; 0]]).

(** problems/EWA1/problem.py:3-19. *)
Definition EWA1 : problem :=
  mk [(0, 1); (0, 1)]
    [ (fun x => let* x0 := get x 0 in let* x1 := get x 1 in
                Some (sin (50 * x0) * cos (50 * x1) + 1));
      (fun x => let* x0 := get x 0 in let* x1 := get x 1 in
                Some ((x0 - 0.5) ^ 2 * (x1 - 0.5) ^ 2)) ]
    (Some [[0; 0]]).

(** problems/EWA2/problem.py:3-20. *)
Definition EWA2 : problem :=
  mk [(0, 1); (0, 1)]
    [ (fun x => let* x0 := get x 0 in let* x1 := get x 1 in
                Some (sin (50 * x0) * cos (30 * x1) + 1));
      (fun x => let* x0 := get x 0 in let* x1 := get x 1 in
                Some (sin (30 * x0) * cos (50 * x1) + 1)) ]
    (Some [[0; 0]]).

(** problems/kursawe/problem.py:14-27.  The front is read from kursawe.dat: not modelled
    ([p_front] is [None]). *)
Definition kursawe_a (xs : list R) : option R :=
  msum (fun p : R * R => let* r := py_sqrt (fst p ^ 2 + snd p ^ 2) in
                         Some (-10 * exp (-0.2 * r))) (combine xs (tl xs)).
(** problems/kursawe/problem.py:21-22. *)
Definition kursawe_b (xs : list R) : option R :=
  msum (fun x => let* q := py_pow (Rabs x) 0.8 in Some (q + 5 * sin (x ^ 3))) xs.
(** problems/kursawe/problem.py:14-27; the front is read from kursawe.dat and left out. *)
Definition kursawe : problem := mk (repeat (-5, 5) 3) [kursawe_a; kursawe_b] None.
