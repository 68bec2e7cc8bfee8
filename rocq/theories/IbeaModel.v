(** Model of the IBEA driver.  Source: algorithms/IBEA/IBEA.py.
    An individual is identified by its position in self.individuals when the fitness is
    calculated.  Floats are real numbers; math.exp does not overflow.  None = exception. *)
From Verif Require Import Spec DomModel NDSortModel VarModel SortModel NsgaModel MetModel.
From Coq Require Import Reals.
Local Open Scope nat_scope.

(** Python's max of a list of floats; ValueError when it is empty.
    IBEA.py:84-87, 105, 188-198. *)
Definition rmax (l : list R) : option R :=
  match l with [] => None | x :: l' => Some (fold_left (fun m y => if Rlt_dec m y then y else m) l' x) end.

Section Ibea.
  Variables eps kappa : R.        (* sys.float_info.epsilon, self.k *)
  Variable m : nat.               (* number of objectives *)
  Variable objv : nat -> vec.     (* [objective(ind.v) for objective in self.objectives] *)

  (** objective number j of an individual. IBEA.py:84-98. *)
  Definition ob (j x : nat) : Z := nth j (objv x) 0%Z.

  (** IBEA.py:84-87: (min, max) of every objective. *)
  Definition measured (inds : list nat) : option (list (Z * Z)) :=
    comprehension (fun j => match py_min (map (ob j) inds), py_max (map (ob j) inds) with
                            | Some lo, Some hi => Some (lo, hi)
                            | _, _ => None
                            end) (seq 0 m).

  (** IBEA.py:93-98: scaled objective j of an individual. *)
  Definition scaled (ranges : list (Z * Z)) (j x : nat) : R :=
    let '(lo, hi) := nth j ranges (0%Z, 0%Z) in
    (IZR (ob j x - lo) / (IZR (hi - lo) + eps))%R.

  (** IBEA.py:188-198 *)
  Definition indicator (ranges : list (Z * Z)) (x1 x2 : nat) : option R :=
    rmax (map (fun j => scaled ranges j x1 - scaled ranges j x2)%R (seq 0 m)).

  (** IBEA.py:101-104: the dictionary (x1, x2) -> indicator. *)
  Definition indicators (ranges : list (Z * Z)) (inds : list nat) : option (nat -> nat -> R) :=
    match comprehension (fun p => indicator ranges (fst p) (snd p)) (list_prod inds inds) with
    | None => None
    | Some _ => Some (fun a b => match indicator ranges a b with Some r => r | None => 0%R end)
    end.

  (** IBEA.py:105 *)
  Definition scale_factor (ind : nat -> nat -> R) (inds : list nat) : option R :=
    rmax (map (fun p => Rabs (ind (fst p) (snd p))) (list_prod inds inds)).

  (** IBEA.py:113-115, 133-136: math.exp of minus the indicator over |c*k + eps|. *)
  Definition loss (ind : nat -> nat -> R) (c : R) (x2 x1 : nat) : R :=
    exp ((-1) * (ind x2 x1 / Rabs (c * kappa + eps)))%R.

  (** IBEA.py:106-122 *)
  Definition sum_losses (ls : nat -> nat -> R) (inds : list nat) (x1 : nat) : R :=
    fold_left (fun s x2 => if x2 =? x1 then s else (s + (-1) * ls x2 x1)%R) inds 0%R.

  (** IBEA.py:124-137.  The loop returns the individuals, their fitness and (for the statements
      about it) the removed individuals in order.  None = IndexError on an empty list, or out of
      fuel (never the case, C33). *)
  Fixpoint selection_loop (ls : nat -> nat -> R) (population_size fuel : nat) (inds : list nat)
           (fitness : nat -> R) (removed : list nat) : option (list nat * (nat -> R) * list nat) :=
    if length inds <=? population_size then Some (inds, fitness, removed)
    else match fuel with
         | O => None
         | S fuel' =>
             let sorted := stable_sort (fun a b => if Rle_dec (fitness b) (fitness a) then true else false) inds in
             match rev sorted with
             | [] => None
             | r :: rest =>
                 let inds' := rev rest in
                 selection_loop ls population_size fuel' inds'
                   (fold_left (fun fit x => upd fit x (fit x + ls r x)%R) inds' fitness)
                   (removed ++ [r])
             end
         end.

  (** IBEA.py:100-137: _calculate_fitness and _environmental_selection, with the ranges that are in
      self.scaled_objectives. *)
  Definition select_within (ranges : list (Z * Z)) (population_size : nat) (inds : list nat)
    : option (list nat * (nat -> R) * list nat) :=
    match indicators ranges inds with
    | None => None
    | Some ind =>
        match scale_factor ind inds with
        | None => None
        | Some c =>
            selection_loop (loss ind c) population_size (length inds) inds
                           (sum_losses (loss ind c) inds) []
        end
    end.

  (** The same when nothing happened to the individuals since the ranges were taken.
      IBEA.py:100-137. *)
  Definition select (population_size : nat) (inds : list nat)
    : option (list nat * (nat -> R) * list nat) :=
    match measured inds with
    | None => None
    | Some ranges => select_within ranges population_size inds
    end.
End Ibea.

(** IBEA.py:139-149: better(x1, x2); [coin] is random.random() < p. *)
Definition better (fitness : nat -> R) (coin : bool) (x1 x2 : nat) : nat :=
  if coin then (if Rlt_dec (fitness x1) (fitness x2) then x1 else x2)
  else (if Rlt_dec (fitness x2) (fitness x1) then x1 else x2).

(** IBEA.py:139-149. *)
Definition ibea_mating (D : step_draws) (fitness : nat -> R) (survivors : list nat) (mating_size : nat)
  : option (list nat) :=
  collect (map (fun k =>
    match random_choice (choice D (2 * k)) survivors,
          random_choice (choice D (2 * k + 1)) survivors with
    | Some x1, Some x2 => Some (better fitness (coin D k) x1 x2)
    | _, _ => None
    end) (seq 0 (2 * mating_size))).

(** ---- the driver ---- *)

(** IBEA.py:200-203 *)
Record ind_ibea := mk_ibea { ib_v : vec; ib_known : bool }.

(** IBEA.py:12-50: constructor arguments. *)
Record ibea_params := {
  ip : params;             (* box, objectives, variation operators and their parameters *)
  ip_eps : R; ip_kappa : R;
  ip_fa : option (list (vec * vec))   (* self.fitness_archive, never written by this driver *)
}.

(** IBEA.py:29-50: the attributes a step changes. *)
Record ibea_state := {
  ib_individuals : list ind_ibea;
  ib_size : nat;           (* self.population_size *)
  ib_mating : nat;         (* self.mating_size *)
  ib_cost : nat;
  ib_charged : list ind_ibea   (* trace: the individuals charged for, as found *)
}.

(** IBEA.py:79-81: ind.v in self.fitness_archive. *)
Definition in_archive (fa : option (list (vec * vec))) (v : vec) : bool :=
  match fa with Some m => match lookup v m with Some _ => true | None => false end | None => false end.

(** IBEA.py:79-83, one individual.  During __init__ (line 48) self.fitness_archive is not set yet, but
    then no individual is known and the second operand of "or" is not evaluated. *)
Definition charge_one (fa : option (list (vec * vec))) (acc : list ind_ibea * (nat * list ind_ibea))
           (i : ind_ibea) : list ind_ibea * (nat * list ind_ibea) :=
  let '(done, (c, tr)) := acc in
  let i' := mk_ibea (ib_v i) true in
  if negb (ib_known i) || negb (in_archive fa (ib_v i))
  then (done ++ [i'], (S c, tr ++ [i]))
  else (done ++ [i'], (c, tr)).

(** IBEA.py:76-83; the ranges (84-91) are computed in [select]. *)
Definition scale_objectives (fa : option (list (vec * vec))) (s : ibea_state) : ibea_state :=
  let '(inds, (c, tr)) := fold_left (charge_one fa) (ib_individuals s) ([], (ib_cost s, ib_charged s)) in
  {| ib_individuals := inds; ib_size := ib_size s; ib_mating := ib_mating s; ib_cost := c; ib_charged := tr |}.

(** IBEA.py:200-203: ind.v of the individual at a position. *)
Definition ib_vec (l : list ind_ibea) (x : nat) : vec := ib_v (nth x l (mk_ibea [] false)).

(** IBEA.py:100-137 on the driver's individuals: survivors' positions and fitness. *)
Definition ibea_select (P : ibea_params) (s : ibea_state) : option (list nat * (nat -> R)) :=
  match select (ip_eps P) (ip_kappa P) (p_m (ip P)) (fun x => p_f (ip P) (ib_vec (ib_individuals s) x))
               (ib_size s) (seq 0 (length (ib_individuals s))) with
  | Some (surv, fit, _) => Some (surv, fit)
  | None => None
  end.

(** IBEA.py:151-169 and 70-71 for offspring i. *)
Definition ibea_child (P : params) (D : step_draws) (l : list ind_ibea) (mating : list nat)
           (mating_size i : nat) : option ind_ibea :=
  match nth_error mating i, nth_error mating (mating_size + i) with
  | Some a, Some b =>
      match crossover (p_raw_a P) (p_raw_b P) (cx_skip D i) (cx_rand D i) (cx_swap D i)
                      (p_half P) (p_epsilon P) (cx_r0 D i) (p_crossover_rate P) (cx_pick D i)
                      (ib_vec l a) (ib_vec l b) (p_dims P) with
      | None => None
      | Some x =>
          match mutate (p_raw P) (mu_sel D i) (mu_rnd D i) (p_mutation_rate P) x (p_dims P) with
          | None => None
          | Some y => Some (mk_ibea (p_trim P y) false)
          end
      end
  | _, _ => None
  end.

(** IBEA.py:64-74: self.individuals = l. *)
Definition ib_with (s : ibea_state) (l : list ind_ibea) : ibea_state :=
  {| ib_individuals := l; ib_size := ib_size s; ib_mating := ib_mating s; ib_cost := ib_cost s;
     ib_charged := ib_charged s |}.

(** IBEA.py:64-74 *)
Definition ibea_step (P : ibea_params) (D : step_draws) (s : ibea_state) : option ibea_state :=
  match ibea_select P s with
  | None => None
  | Some (surv, fit) =>
      match ibea_mating D fit surv (ib_mating s) with
      | None => None
      | Some mating =>
          match collect (map (ibea_child (ip P) D (ib_individuals s) mating (ib_mating s)) (seq 0 (ib_mating s))) with
          | None => None
          | Some children =>
              let kept := map (fun x => nth x (ib_individuals s) (mk_ibea [] false)) surv in
              Some (scale_objectives (ip_fa P) (ib_with s (kept ++ children)))
          end
      end
  end.

(** IBEA.py:52-62: finalized_population: new state and returned vectors. *)
Definition ibea_finish (P : ibea_params) (s : ibea_state) : option (ibea_state * list vec) :=
  let s1 := scale_objectives (ip_fa P) s in
  match ibea_select P s1 with
  | None => None
  | Some (surv, _) =>
      let kept := map (fun x => nth x (ib_individuals s1) (mk_ibea [] false)) surv in
      Some (ib_with s1 kept, map ib_v kept)
  end.

(** IBEA.py:29-50 with the population setter 175-179; [mating n] is int(mating_size_c * n). *)
Definition ibea_init (P : ibea_params) (mating : nat -> nat) (population : list vec) : ibea_state :=
  let inds := map (fun x => mk_ibea (p_trim (ip P) x) false) population in
  scale_objectives (ip_fa P)
    {| ib_individuals := inds; ib_size := length inds; ib_mating := mating (length inds);
       ib_cost := 0; ib_charged := [] |}.

(** one call on the driver: IBEA.py:52-62, 64-74, 171-179. *)
Definition ibea_op (P : ibea_params) (s : ibea_state) (o : op) : option ibea_state :=
  match o with
  | Step D => ibea_step P D s
  | Finalize => match ibea_finish P s with Some (s', _) => Some s' | None => None end
  end.
(** IBEA.py:52-74, 171-179: a history of calls. *)
Fixpoint ibea_ops (P : ibea_params) (s : ibea_state) (ops : list op) : option ibea_state :=
  match ops with
  | [] => Some s
  | o :: ops' => match ibea_op P s o with Some s' => ibea_ops P s' ops' | None => None end
  end.
