(** Model of the quality metrics: metrics/metrics_utils.py, metrics/metrics.py, metrics/epsilon.py.
    Coordinates are Z (DESIGN.md section 2), sums and products of them are exact; division and
    square root are those of R.  None = exception unless said otherwise. *)
From Verif Require Import Spec DomModel.
From Coq Require Import Reals QArith.
Local Open Scope Z_scope.

(** metrics/metrics_utils.py:52-53; zip stops at the shorter vector. *)
Fixpoint euclid_sqr_loop (acc : Z) (xs ys : vec) : Z :=
  match xs, ys with
  | x :: xs', y :: ys' => euclid_sqr_loop (acc + (x - y) ^ 2) xs' ys'
  | _, _ => acc
  end.
(** metrics/metrics_utils.py:52-53. *)
Definition euclid_sqr_distance (xs ys : vec) : Z := euclid_sqr_loop 0 xs ys.

(** metrics/metrics_utils.py:48-49 *)
Definition euclid_distance (xs ys : vec) : R := sqrt (IZR (euclid_sqr_distance xs ys)).

(** Python's min/max of a list of numbers; ValueError when it is empty.
    metrics/metrics_utils.py:37-45, 71-79, 89-91. *)
Definition py_min (l : list Z) : option Z :=
  match l with [] => None | x :: l' => Some (fold_left (fun m y => if y <? m then y else m) l' x) end.
(** metrics/metrics_utils.py:37-45: max. *)
Definition py_max (l : list Z) : option Z :=
  match l with [] => None | x :: l' => Some (fold_left (fun m y => if m <? y then y else m) l' x) end.
(** metrics/metrics_utils.py:76-91: sum. *)
Definition py_sum (l : list Z) : Z := fold_left Z.add l 0.

(** A list comprehension whose element expression may raise.
    metrics/metrics_utils.py:89-91. *)
Fixpoint comprehension {A B} (f : A -> option B) (l : list A) : option (list B) :=
  match l with
  | [] => Some []
  | x :: l' => match f x, comprehension f l' with Some y, Some r => Some (y :: r) | _, _ => None end
  end.

(** metrics/metrics_utils.py:89-91; min([]) raises, an empty from_set divides by zero. *)
Definition distance (from_set to_set : list vec) : option R :=
  match comprehension (fun f => py_min (map (euclid_sqr_distance f) to_set)) from_set with
  | None => None
  | Some distances =>
      match distances with
      | [] => None
      | _ => Some (sqrt (IZR (py_sum distances) / INR (length distances)))
      end
  end.

(** metrics/metrics_utils.py:56-61 *)
Definition generational_distance (solution pareto : list vec) : option R := distance solution pareto.
(** metrics/metrics_utils.py:60-61. *)
Definition inverse_generational_distance (solution pareto : list vec) : option R := distance pareto solution.

(** metrics/metrics.py:18-32; Python's max returns the first argument unless the second is larger. *)
Definition m_generational_distance (solution not_dominated_solution pareto : list vec) :=
  generational_distance not_dominated_solution pareto.
(** metrics/metrics.py:22-25. *)
Definition m_inverse_generational_distance (solution not_dominated_solution pareto : list vec) :=
  inverse_generational_distance solution pareto.
(** metrics/metrics.py:27-32. *)
Definition average_hausdorff_distance (solution not_dominated_solution pareto : list vec) : option R :=
  match m_generational_distance solution not_dominated_solution pareto,
        m_inverse_generational_distance solution not_dominated_solution pareto with
  | Some a, Some b => Some (if Rlt_dec a b then b else a)
  | _, _ => None
  end.

(** enumerate(l). metrics/metrics_utils.py:71-79. *)
Definition enumerate {A} (l : list A) : list (nat * A) := combine (seq 0 (length l)) l.

(** metrics/epsilon.py:17-26: loop over k; [eps_k] survives from the previous round.  _obj is all
    zeros (38-39), so the first branch is taken. *)
Definition eps_loop_k (dim : nat) (p s : vec) (eps_k : Z) : option Z :=
  fold_left (fun acc k =>
    match acc, nth_error p k, nth_error s k with
    | Some e, Some a, Some b =>
        let eps_temp := a - b in
        Some (if (k =? 0)%nat then eps_temp else if e <? eps_temp then eps_temp else e)
    | _, _, _ => None
    end) (seq 0 dim) (Some eps_k).

(** metrics/epsilon.py:16-30: loop over j; state (eps_j, eps_k). *)
Definition eps_loop_j (dim : nat) (pareto : list vec) (s : vec) (st : Z * Z) : option (Z * Z) :=
  fold_left (fun acc '(j, p) =>
    match acc with
    | None => None
    | Some (eps_j, eps_k) =>
        match eps_loop_k dim p s eps_k with
        | None => None
        | Some eps_k' => Some (if (j =? 0)%nat then eps_k' else if eps_k' <? eps_j then eps_k' else eps_j, eps_k')
        end
    end) (enumerate pareto) (Some st).

(** metrics/epsilon.py:15-34: one round of the outer loop; state (eps, eps_j, eps_k), eps = None
    is -inf. *)
Definition eps_step (dim : nat) (pareto : list vec) (acc : option (option Z * Z * Z)) (is : nat * vec)
  : option (option Z * Z * Z) :=
  match acc with
  | None => None
  | Some (eps, eps_j, eps_k) =>
      match eps_loop_j dim pareto (snd is) (eps_j, eps_k) with
      | None => None
      | Some (eps_j', eps_k') =>
          Some ((if (fst is =? 0)%nat then Some eps_j'
                 else match eps with
                      | Some e => if e <? eps_j' then Some eps_j' else eps
                      | None => Some eps_j'
                      end), eps_j', eps_k')
      end
  end.

(** metrics/epsilon.py:6-36; pareto[0] raises for an empty front; Some None = -inf. *)
Definition epsilon (solution pareto : list vec) : option (option Z) :=
  match pareto with
  | [] => None
  | p0 :: _ =>
      match fold_left (eps_step (length p0) pareto) (enumerate solution) (Some (None, 0, 0)) with
      | None => None
      | Some (eps, _, _) => Some eps
      end
  end.

(** metrics/metrics_utils.py:64-65; None = ZeroDivisionError. *)
Definition non_domination_ratio (solution not_dominated_solution : list vec) : option Q :=
  match solution with
  | [] => None
  | _ => Some (Z.of_nat (length not_dominated_solution) # Pos.of_nat (length solution))
  end.

(** Membership of a tuple in a Python set of tuples. metrics/metrics_utils.py:94-98. *)
Definition vec_eqb (a b : vec) : bool := if list_eq_dec Z.eq_dec a b then true else false.
(** metrics/metrics_utils.py:94-98: x in s. *)
Definition vec_in (v : vec) (s : list vec) : bool := existsb (vec_eqb v) s.
(** set(l): the distinct elements (in some order; only membership and size are used).
    metrics/metrics_utils.py:94-98. *)
Definition set_of (l : list vec) : list vec := nodup (list_eq_dec Z.eq_dec) l.

(** metrics/metrics_utils.py:94-98; None = ZeroDivisionError. *)
Definition pareto_dominance_indicator (solution not_dominated_solution all_solutions : list vec) : option Q :=
  match all_solutions with
  | [] => None
  | _ => Some (Z.of_nat (length (filter (fun s => vec_in s all_solutions) not_dominated_solution)) #
               Pos.of_nat (length all_solutions))
  end.

(** simulation/metrics_processor.py:18-20 and 243-245: what the processor passes for the second and
    third argument, given the fitnesses of all algorithms for the same problem, budget and run. *)
Definition common_front (solutions : list (list vec)) : list vec :=
  set_of (filter_not_dominated (fun v : vec => v) (concat solutions)).
(** simulation/metrics_processor.py:162-185, 240-245. *)
Definition pdi_of_result (fitnesses : list vec) (solutions : list (list vec)) : option Q :=
  pareto_dominance_indicator fitnesses (filter_not_dominated (fun v : vec => v) fitnesses) (common_front solutions).

(** metrics/metrics_utils.py:76: sum of |a_k - b_k| for k < dims; None = IndexError. *)
Definition manhattan_distance (dims : nat) (a b : vec) : option Z :=
  match comprehension (fun k => match nth_error a k, nth_error b k with
                                | Some x, Some y => Some (Z.abs (x - y)) | _, _ => None end) (seq 0 dims) with
  | Some l => Some (py_sum l)
  | None => None
  end.

(** metrics/metrics_utils.py:71-79: the list min_distances. *)
Definition min_distances (solution : list vec) (dims : nat) : option (list Z) :=
  fold_left (fun acc '(i, ind_a) =>
    match acc,
          comprehension (fun '(_, ind_b) => manhattan_distance dims ind_a ind_b)
                        (filter (fun '(j, _) => negb (i =? j)%nat) (enumerate solution)) with
    | Some ms, Some distances =>
        match py_min distances with Some m => Some (ms ++ [m]) | None => Some ms end
    | _, _ => None
    end) (enumerate solution) (Some []).

(** metrics/metrics_utils.py:68-86; [eps] is EPSILON; solution[0] raises for an empty solution. *)
Definition spacing (eps : R) (solution : list vec) : option R :=
  match solution with
  | [] => None
  | s0 :: _ =>
      match min_distances solution (length s0) with
      | None => None
      | Some ms =>
          let mean_dist := match ms with [] => 0%R | _ => (IZR (py_sum ms) / INR (length ms))%R end in
          let dist_sum := fold_left (fun acc d => (acc + (mean_dist - IZR d) ^ 2)%R) ms 0%R in
          Some (sqrt (dist_sum / (IZR (Z.of_nat (length solution) - 1) + eps)))
      end
  end.

(** metrics/metrics_utils.py:37-45; None = IndexError (empty solution or a short vector). *)
Definition extent (solution : list vec) : option R :=
  match solution with
  | [] => None
  | s0 :: _ =>
      match comprehension (fun i =>
              match comprehension (fun '(x, y) =>
                      match nth_error x i, nth_error y i with
                      | Some a, Some b => Some (Z.abs (a - b)) | _, _ => None end)
                    (list_prod solution solution) with
              | Some l => py_max l
              | None => None
              end) (seq 0 (length s0)) with
      | Some l => Some (sqrt (IZR (py_sum l)))
      | None => None
      end
  end.

(** metrics/metrics_utils.py:20-34; None = infinity (the ZeroDivisionError is caught). *)
Definition distribution (sigma : R) (solution : list vec) : option R :=
  let n := Z.of_nat (length solution) in
  if n * (n - 1) =? 0 then None
  else Some (INR (fold_left (fun acc x =>
               (acc + fold_left (fun acc y => if Rlt_dec sigma (sqrt (IZR (euclid_sqr_distance x y)))
                                              then S acc else acc) solution 0)%nat) solution 0%nat)
             / IZR (n * (n - 1)))%R.
