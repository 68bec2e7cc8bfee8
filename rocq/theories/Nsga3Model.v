(** Model of the NSGA-III driver.  Source: algorithms/NSGAIII/NSGAIII.py.
    Individuals are [indiv] (vector, objectives once evaluated); their variation is in VarModel.
    Normalised objectives, reference points and theta fitness are real numbers.  EPSILON is
    [p_epsilon].  random.random() and math.pow are exact.  None = exception unless said otherwise. *)
From Verif Require Import Spec DomModel NDSortModel VarModel NsgaModel MetModel NslsModel.
From Coq Require Import Reals.
Local Open Scope nat_scope.

(** ---- reference points ---- *)

(** NSGAIII.py:355-370, from the iteration with [left] coordinates to go; [rand left] is the first
    non-zero draw of lines 360-362 in that iteration. *)
Fixpoint reference_loop (left : nat) (rand : nat -> R) (coord_sum : R) : list R :=
  match left with
  | O => []
  | S k =>
      match k with
      | O => [(1 - coord_sum)%R]
      | S _ =>
          let coordinate := ((1 - coord_sum) * (1 - Rpower (rand left) (1 / INR k)))%R in
          coordinate :: reference_loop k rand (coord_sum + coordinate)%R
      end
  end.
(** NSGAIII.py:355-370. *)
Definition generate_reference_point (objective_no : nat) (rand : nat -> R) : list R :=
  reference_loop objective_no rand 0%R.

(** ---- vectors ---- *)

(** numpy.dot and numpy.linalg.norm, for vectors of the same length.
    NSGAIII.py:373-386. *)
Fixpoint dot (x y : list R) : R :=
  match x, y with a :: x', b :: y' => (a * b + dot x' y')%R | _, _ => 0%R end.
(** NSGAIII.py:373-386: numpy.linalg.norm. *)
Definition norm (x : list R) : R := sqrt (dot x x).
(** x - t * r. NSGAIII.py:379-386. *)
Fixpoint away (x : list R) (t : R) (r : list R) : list R :=
  match x, r with a :: x', b :: r' => (a - t * b)%R :: away x' t r' | _, _ => [] end.

(** NSGAIII.py:373-376 *)
Definition scalar_projection (n r : list R) (len : R) : R := (dot n r / len)%R.
(** NSGAIII.py:379-386 *)
Definition scalar_rejection (n r : list R) (len : R) : R :=
  norm (away n (scalar_projection n r len / len) r).

(** ---- ideal point and normalisation ---- *)

(** The loops of lines 110-112 and 238-241 for one individual: a coordinate is replaced when the
    objective is better; None in the point is the infinity that everything improves on.
    None = IndexError. *)
Fixpoint extend (better : Z -> Z -> bool) (point : list (option Z)) (objectives : vec) : option (list (option Z)) :=
  match objectives, point with
  | [], _ => Some point
  | _ :: _, [] => None
  | o :: os, p :: ps =>
      match extend better ps os with
      | None => None
      | Some r => Some (match p with Some x => if better o x then Some o else Some x | None => Some o end :: r)
      end
  end.
(** NSGAIII.py:110-112 *)
Definition lower := extend (fun o x => (o <? x)%Z).
(** NSGAIII.py:238-241 *)
Definition raise_point := extend (fun o x => (x <? o)%Z).
(** NSGAIII.py:109-112, 238-241: the loop over the individuals. *)
Fixpoint along (move : list (option Z) -> vec -> option (list (option Z))) (point : list (option Z))
         (inds : list indiv) : option (list (option Z)) :=
  match inds with
  | [] => Some point
  | i :: l => match move point (objs i) with None => None | Some p => along move p l end
  end.

(** NSGAIII.py:248-252 for one individual; None = ZeroDivisionError.  A point with infinities is not modelled (None). *)
Fixpoint normalized (eps : Z) (ideal defiled : list (option Z)) (objectives : vec) {struct objectives} : option (list R) :=
  match objectives, ideal, defiled with
  | [], _, _ => Some []
  | o :: os, Some i :: ideal', Some d :: defiled' =>
      if (d - i + eps =? 0)%Z then None
      else match normalized eps ideal' defiled' os with
           | None => None
           | Some r => Some ((IZR (o - i) / IZR (d - i + eps))%R :: r)
           end
  | _, _, _ => None
  end.
(** NSGAIII.py:236-254 *)
Definition normalize (eps : Z) (m : nat) (ideal : list (option Z)) (inds : list indiv) : option (list (list R)) :=
  match along raise_point (repeat None m) inds with
  | None => None
  | Some defiled => comprehension (fun i => normalized eps ideal defiled (objs i)) inds
  end.

(** ---- clusters and theta fitness ---- *)

(** NSGAIII.py:259-267 from reference point number i on; the state is (min_i, min_rejection). *)
Fixpoint closest (n : list R) (i : nat) (best : option (nat * R)) (refs : list (list R)) : option (nat * R) :=
  match refs with
  | [] => best
  | r :: refs' =>
      let rejection := scalar_rejection n r (norm r) in
      closest n (S i)
        (match best with
         | None => Some (i, rejection)
         | Some (j, m) => if Rlt_dec rejection m then Some (i, rejection) else Some (j, m)
         end) refs'
  end.
(** NSGAIII.py:256-270: cluster and rejection of every individual; None = self.clusters[-1] of an
    empty list. *)
Definition clustering (refs : list (list R)) (ns : list (list R)) : option (list (nat * R)) :=
  comprehension (fun n => closest n 0 None refs) ns.

(** NSGAIII.py:272-280 *)
Definition theta_fitness (theta : R) (refs : list (list R)) (n : list R) (c : nat * R) : R :=
  let r := nth (fst c) refs [] in (scalar_projection n r (norm r) + theta * snd c)%R.

(** NSGAIII.py:319-352 *)
Definition theta_dominates3 (cluster : nat -> nat) (fitness : nat -> R) (x y : nat) : bool :=
  (cluster x =? cluster y) && (if Rlt_dec (fitness x) (fitness y) then true else false).

(** NSGAIII.py:282-307; the while loop is that of NSLS ([fill], out of fuel = it never ends). *)
Definition create_final_population (fuel : nat) (sample : nat -> list nat -> list nat) (size : nat)
           (fronts : list (list nat)) : outcome (list nat) :=
  match fill fuel size fronts 0 [] with
  | None => OutOfFuel
  | Some (new_inds, front) => Done (new_inds ++ sample (size - length new_inds) front)
  end.

(** ---- the driver ---- *)

(** Random draws of a step: for pair k the two parents, the crossover draws, the mutation draws of
    both children; and random.sample at the end. NSGAIII.py:208-234, 282-307. *)
Record n3_draws := {
  n3_pick : nat -> nat * nat; n3_r0 : nat -> Z;
  n3_skip : nat -> nat -> Z; n3_rand : nat -> nat -> Z; n3_swap : nat -> nat -> Z;
  n3_sel_a : nat -> nat -> Z; n3_rnd_a : nat -> nat -> Z;
  n3_sel_b : nat -> nat -> Z; n3_rnd_b : nat -> nat -> Z;
  n3_sample : nat -> list nat -> list nat
}.

(** n3_seen: vectors of all individuals handed to update_ideal_point so far (not in the code).
    NSGAIII.py:16-77. *)
Record n3_state := {
  n3_individuals : list indiv; n3_size : nat; n3_refs : list (list R); n3_ideal : list (option Z);
  n3_context : context; n3_seen : list vec
}.

(** NSGAIII.py:107-112 *)
Definition update_ideal_point (P : params) (ideal : list (option Z)) (ctx : context) (inds : list indiv)
  : option (list indiv * context * list (option Z)) :=
  let '(inds', ctx') := fold_left (evaluate P) inds ([], ctx) in
  match along lower ideal inds' with None => None | Some ideal' => Some (inds', ctx', ideal') end.

(** NSGAIII.py:16-71, 73-77 *)
Definition n3_init (P : params) (rands : nat -> nat -> R) (ar : option (list (vec * vec))) (population : list vec)
  : option n3_state :=
  let inds := map (fun x => mk_indiv (p_trim P x) None) population in
  match update_ideal_point P (repeat None (p_m P)) (0, ar, []) inds with
  | None => None
  | Some (inds', ctx, ideal) =>
      Some {| n3_individuals := inds'; n3_size := length population;
              n3_refs := map (fun k => generate_reference_point (p_m P) (rands k)) (seq 0 (length population));
              n3_ideal := ideal; n3_context := ctx; n3_seen := map iv inds' |}
  end.

(** NSGAIII.py:211-233: the two children of pair k. *)
Definition make_pair (P : params) (D : n3_draws) (inds : list indiv) (k : nat) : option (list indiv3) :=
  match nth_error inds (fst (n3_pick D k)), nth_error inds (snd (n3_pick D k)) with
  | Some pa, Some pb =>
      match simulated_binary_crossover (p_raw_a P) (p_raw_b P) (n3_skip D k) (n3_rand D k) (n3_swap D k) (p_half P) (p_epsilon P)
              (n3_r0 D k) (p_crossover_rate P) (mk3 (iv pa) (iobj pa)) (mk3 (iv pb) (iobj pb)) (p_dims P) with
      | None => None
      | Some (ca, cb) =>
          match polynomial_mutation (p_raw P) (n3_sel_a D k) (n3_rnd_a D k) (p_mutation_rate P) (p_dims P) ca,
                polynomial_mutation (p_raw P) (n3_sel_b D k) (n3_rnd_b D k) (p_mutation_rate P) (p_dims P) cb with
          | Some a, Some b => Some [a; b]
          | _, _ => None
          end
      end
  | _, _ => None
  end.
(** NSGAIII.py:208-234 and 119-120 *)
Definition make_offspring (P : params) (D : n3_draws) (size : nat) (inds : list indiv) : option (list indiv) :=
  match comprehension (make_pair P D inds) (seq 0 (size / 2)) with
  | None => None
  | Some pairs => Some (map (fun c => mk_indiv (p_trim P (v3 c)) (objs3 c)) (concat pairs))
  end.

(** NSGAIII.py:117-206, without the debugging code in comments. *)
Definition n3_step (P : params) (theta : R) (fuel : nat) (D : n3_draws) (s : n3_state) : outcome n3_state :=
  match make_offspring P D (n3_size s) (n3_individuals s) with
  | None => Raised
  | Some offspring =>
      match update_ideal_point P (n3_ideal s) (n3_context s) offspring with
      | None => Raised
      | Some (offspring', ctx, ideal) =>
          let pop := offspring' ++ n3_individuals s in
          match normalize (p_epsilon P) (p_m P) ideal pop with
          | None => Raised
          | Some ns =>
              match clustering (n3_refs s) ns with
              | None => Raised
              | Some cs =>
                  let cluster i := fst (nth i cs (0, 0%R)) in
                  let fitness i := theta_fitness theta (n3_refs s) (nth i ns []) (nth i cs (0, 0%R)) in
                  match nd_sort_gen (theta_dominates3 cluster fitness) (p_iter P) (seq 0 (length pop)) with
                  | None => OutOfFuel
                  | Some fronts =>
                      match create_final_population fuel (n3_sample D) (n3_size s) fronts with
                      | Raised => Raised
                      | OutOfFuel => OutOfFuel
                      | Done pos =>
                          Done {| n3_individuals := map (at_pos pop) pos; n3_size := n3_size s; n3_refs := n3_refs s;
                                  n3_ideal := ideal; n3_context := ctx; n3_seen := n3_seen s ++ map iv offspring' |}
                      end
                  end
              end
          end
      end
  end.

(** NSGAIII.py:117-206, any number of steps. *)
Fixpoint n3_steps (P : params) (theta : R) (fuel : nat) (Ds : list n3_draws) (s : n3_state) : outcome n3_state :=
  match Ds with
  | [] => Done s
  | D :: Ds' =>
      match n3_step P theta fuel D s with
      | Done s' => n3_steps P theta fuel Ds' s'
      | Raised => Raised
      | OutOfFuel => OutOfFuel
      end
  end.

(** NSGAIII.py:114-115 *)
Definition n3_finalized (s : n3_state) : list vec := map iv (n3_individuals s).
