(** Model of the scores the rankings compare: metrics/metrics.py:60-71, the metrics in the order and
    with the arguments of simulation/metrics_processor.py:17-68, and the choice of the winner
    (statistic/ranking.py:26-33).  The score of one run is modelled; the rankings use the mean over
    the runs (StatModel).  No proofs here. *)
From Coq Require Import Reals QArith Qreals String.
From Verif Require Import Spec DomModel MetModel HvModel.
From Coq Require Import List.
Local Open Scope Z_scope.

(** metrics/metrics.py:61-66 [hypervolume]: the reference point is 50 in every objective of the
    published front; [unit] is 1.0 on the grid of coordinates (DESIGN.md section 2), [neg] is
    -1.0e308.  The result is in units of [unit] to the power of the number of objectives.
    None = IndexError for an empty front or an exception inside the computation. *)
Definition m_hypervolume (neg unit : Z) (solution not_dominated_solution pareto : list vec) : option Z :=
  match pareto with
  | [] => None
  | p0 :: _ => compute neg (repeat (50 * unit) (length p0)) not_dominated_solution
  end.

(** The names of the ranked metrics.  statistic/ranking.py:26-33. *)
Inductive metric := Hypervolume | Igd | Ahd | Spacing | Gd | Pdi.

(** simulation/metrics_processor.py:17-68 and 108-185 with metrics/metrics.py:18-71: the value of one
    run.  [sols] are the results of all algorithms on the problem for the same budget and run
    number, [eps] is EPSILON of metrics/metrics_utils.py:8. *)
Definition score (neg unit : Z) (eps : R) (pareto : list vec) (sols : list (list vec)) (m : metric) (s : list vec)
  : option R :=
  let nd := filter_not_dominated (fun v : vec => v) s in
  match m with
  | Hypervolume => option_map IZR (m_hypervolume neg unit s nd pareto)
  | Igd => m_inverse_generational_distance s nd pareto
  | Ahd => average_hausdorff_distance s nd pareto
  | Spacing => spacing eps nd
  | Gd => m_generational_distance s nd pareto
  | Pdi => option_map Q2R (pareto_dominance_indicator s nd (common_front sols))
  end.

(** statistic/ranking.py:26-33: max or min. *)
Definition larger_wins (m : metric) : bool :=
  match m with Hypervolume | Pdi => true | Igd | Ahd | Spacing | Gd => false end.

(** The scores of all algorithms; None if one of them raises.  statistic/ranking.py:209-217, 256-269. *)
Definition scoring (neg unit : Z) (eps : R) (pareto : list vec) (m : metric) (results : list (string * list vec))
  : option (list (string * R)) :=
  comprehension (fun '(algo, s) =>
    match score neg unit eps pareto (map snd results) m s with Some v => Some (algo, v) | None => None end) results.

(** max / min with key=lambda x: x[1]: the first of the best.  statistic/ranking.py:221-223, 276. *)
Definition best (larger : bool) (l : list (string * R)) : option (string * R) :=
  match l with
  | [] => None
  | x :: rest =>
      Some (fold_left (fun b y =>
              if Rlt_dec (snd (if larger then b else y)) (snd (if larger then y else b)) then y else b) rest x)
  end.

(** The winner of one problem in one metric.  statistic/ranking.py:219-224, 274-277. *)
Definition winner (neg unit : Z) (eps : R) (pareto : list vec) (m : metric) (results : list (string * list vec))
  : option (string * R) :=
  match scoring neg unit eps pareto m results with
  | Some l => best (larger_wins m) l
  | None => None
  end.
