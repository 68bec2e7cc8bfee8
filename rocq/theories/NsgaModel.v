(** Model of the NSGA-II driver.  Source: algorithms/NSGAII/NSGAII.py.
    A Python individual is identified by its position in self.individuals at the moment the
    population is sorted (no object occurs twice in that list). *)
From Verif Require Import Spec DomModel NDSortModel VarModel SortModel.
From Coq Require Import QArith.
Local Open Scope nat_scope.

(** A crowding distance: a finite number or float("inf"). NSGAII.py:144-170. *)
Inductive dist := Inf | Fin (q : Q).
(** NSGAII.py:166-170: +=. *)
Definition dist_add (d : dist) (q : Q) : dist :=
  match d with Inf => Inf | Fin a => Fin (a + q)%Q end.

Section Crowding.
  (** sys.float_info.epsilon, in the unit of the objective values. *)
  Variable eps : Q.
  Variable obj : nat -> vec.

  (** x.objectives[objective] with objectives numbered. NSGAII.py:152-170. *)
  Definition objective (j : nat) (x : nat) : Z := nth j (obj x) 0%Z.

  (** NSGAII.py:166-170: the loop over the inner members of the sorted front: three
      consecutive members prev, cur, next. *)
  Fixpoint inner_gaps (j : nat) (den : Q) (inds : list nat) (d : nat -> dist) : nat -> dist :=
    match inds with
    | prev :: ((cur :: next :: _) as tl) =>
        inner_gaps j den tl
          (upd d cur (dist_add (d cur) (inject_Z (objective j next - objective j prev)%Z / den)%Q))
    | _ => d
    end.

  (** NSGAII.py:152-170: one objective on one front with at least two members; returns the
      front re-sorted in place and the distances. *)
  Definition crowd_objective (st : list nat * (nat -> dist)) (j : nat) : list nat * (nat -> dist) :=
    let '(inds0, d) := st in
    let inds := stable_sort (fun a b => (objective j a <=? objective j b)%Z) inds0 in
    let first := hd 0 inds in
    let last_ := last inds 0 in
    let before_last := last (removelast inds) 0 in
    let max_r := objective j last_ in
    let min_r := objective j first in
    let den := (inject_Z (max_r - min_r)%Z + eps)%Q in
    let d1 := upd d first Inf in
    let d2 := upd d1 last_
                (dist_add (d1 last_)
                   (2 * inject_Z (objective j last_ - objective j before_last)%Z / den)%Q) in
    (inds, inner_gaps j den inds d2).

  (** NSGAII.py:147-170: one front; [m] is the number of objectives. *)
  Definition crowd_front (m : nat) (d : nat -> dist) (front : list nat) : nat -> dist :=
    match front with
    | [] => d
    | [x] => upd d x (Fin 0%Q)
    | _ => snd (fold_left crowd_objective (seq 0 m) (front, d))
    end.

  (** NSGAII.py:144-170. *)
  Definition crowding (m : nat) (fronts : list (list nat)) : nat -> dist :=
    fold_left (crowd_front m) fronts (fun _ => Fin 0%Q).
End Crowding.

(** NSGAII.py:173-176: the fitness pair (rank, 1 / (dist + eps)). *)
Definition fitness_key (eps : Q) (rank : nat -> nat) (d : nat -> dist) (x : nat) : nat * Q :=
  (rank x, match d x with Inf => 0%Q | Fin q => (1 / (q + eps))%Q end).

(** Python's comparison of such pairs. NSGAII.py:173-176, 184-188. *)
Definition key_lt (a b : nat * Q) : bool :=
  (fst a <? fst b) || ((fst a =? fst b) && negb (Qle_bool (snd b) (snd a))).
(** NSGAII.py:178-180: sorted by that key. *)
Definition key_le (a b : nat * Q) : bool :=
  (fst a <? fst b) || ((fst a =? fst b) && Qle_bool (snd a) (snd b)).

(** NSGAII.py:172-180. *)
Definition environmental_selection (eps : Q) (rank : nat -> nat) (d : nat -> dist)
           (population_size : nat) (individuals : list nat) : list nat :=
  firstn population_size
    (stable_sort (fun a b => key_le (fitness_key eps rank d a) (fitness_key eps rank d b))
                 individuals).

(** ---- the driver ---- *)

(** NSGAII.py:213-224: an individual; objectives is None until evaluated. *)
Record indiv := mk_indiv { iv : vec; iobj : option vec }.

(** The random draws of one step. NSGAII.py:182-210. *)
Record step_draws := {
  choice : nat -> nat;                        (* random.choice at line 190, draw k *)
  coin : nat -> bool;                         (* line 183 *)
  cx_r0 : nat -> Z; cx_pick : nat -> bool;    (* crossover of offspring i *)
  cx_skip : nat -> nat -> Z; cx_rand : nat -> nat -> Z; cx_swap : nat -> nat -> Z;
  mu_sel : nat -> nat -> Z; mu_rnd : nat -> nat -> Z (* mutation of offspring i, gene j *)
}.

(** Fixed parameters of a driver (constructor arguments, lines 29-64). *)
Record params := {
  p_dims : box;
  p_f : vec -> vec;                  (* [objective(v) for objective in self.objectives] *)
  p_m : nat;                         (* number of objectives *)
  p_trim : vec -> vec;
  p_crossover_rate : Z; p_mutation_rate : Z;
  p_raw : Z -> Z -> Z -> Z -> Z;
  p_raw_a : Z -> Z -> Z -> Z -> Z -> Z; p_raw_b : Z -> Z -> Z -> Z -> Z -> Z;
  p_half : Z; p_epsilon : Z; p_eps : Q;
  p_iter : nat -> list nat -> list nat   (* set iteration order in _nd_sort *)
}.

(** Mutable state; [evals] is the trace of vectors handed to the problem's objectives.
    NSGAII.py:53-79. *)
Record nstate := {
  individuals : list indiv;
  population_size : nat;
  mating_size : nat;
  cost : nat;
  archive : option (list (vec * vec));
  evals : list vec
}.

(** NSGAII.py:104-108: self.fitness_archive[ind.v]. *)
Fixpoint lookup (k : vec) (m : list (vec * vec)) : option vec :=
  match m with
  | [] => None
  | (k', o) :: m' => if vec_eqb k k' then Some o else lookup k m'
  end.

(** NSGAII.py:101-116, one individual.  zip(objectives, fitnesses) keeps the values in
    objective order. *)
Definition evaluate (P : params) (acc : list indiv * (nat * option (list (vec * vec)) * list vec))
           (i : indiv) : list indiv * (nat * option (list (vec * vec)) * list vec) :=
  let '(done, (c, ar, tr)) := acc in
  match iobj i with
  | Some _ => (done ++ [i], (c, ar, tr))
  | None =>
      match (match ar with Some m => lookup (iv i) m | None => None end) with
      | Some o => (done ++ [mk_indiv (iv i) (Some o)], (c, ar, tr))
      | None =>
          let o := p_f P (iv i) in
          (done ++ [mk_indiv (iv i) (Some o)],
           (S c, match ar with Some m => Some ((iv i, o) :: m) | None => None end, tr ++ [iv i]))
      end
  end.

(** NSGAII.py:101-116. *)
Definition calculate_objectives (P : params) (s : nstate) : nstate :=
  let '(inds, (c, ar, tr)) :=
    fold_left (evaluate P) (individuals s) ([], (cost s, archive s, evals s)) in
  {| individuals := inds; population_size := population_size s; mating_size := mating_size s;
     cost := c; archive := ar; evals := tr |}.

(** NSGAII.py:88-99: self.individuals = l. *)
Definition with_individuals (s : nstate) (l : list indiv) : nstate :=
  {| individuals := l; population_size := population_size s; mating_size := mating_size s;
     cost := cost s; archive := archive s; evals := evals s |}.

(** The objective vector of the individual at a position (all are evaluated when sorting).
    NSGAII.py:118-180. *)
Definition obj_at (l : list indiv) (i : nat) : vec :=
  match nth_error l i with
  | Some ind => match iobj ind with Some o => o | None => [] end
  | None => []
  end.

(** NSGAII.py:89-91 (and 83-85): _nd_sort, _crowding, _environmental_selection.  Gives the
    surviving positions in order and the fitness function; None = the sort did not terminate. *)
Definition sort_and_select (P : params) (s : nstate) : option (list nat * (nat -> nat * Q)) :=
  let n := length (individuals s) in
  let obj := obj_at (individuals s) in
  match nsgaii_nd_sort obj (p_iter P) (seq 0 n) with
  | None => None
  | Some fronts =>
      let d := crowding (p_eps P) obj (p_m P) fronts in
      let rank := front_number fronts in
      Some (environmental_selection (p_eps P) rank d (population_size s) (seq 0 n),
            fitness_key (p_eps P) rank d)
  end.

(** NSGAII.py:182-204: a comprehension whose element expression may raise. *)
Fixpoint collect {A} (l : list (option A)) : option (list A) :=
  match l with
  | [] => Some []
  | Some a :: l' => match collect l' with Some r => Some (a :: r) | None => None end
  | None :: _ => None
  end.

(** random.choice(l) with draw k; None = IndexError on an empty list.
    NSGAII.py:190, 196-203. *)
Definition random_choice (k : nat) (l : list nat) : option nat :=
  match l with [] => None | _ => nth_error l (k mod length l) end.

(** NSGAII.py:182-192. *)
Definition mating_selection (D : step_draws) (fit : nat -> nat * Q) (survivors : list nat)
           (mating_size : nat) : option (list nat) :=
  collect (map (fun k =>
    match random_choice (choice D (2 * k)) survivors,
          random_choice (choice D (2 * k + 1)) survivors with
    | Some x1, Some x2 =>
        Some (if coin D k
              then (if key_lt (fit x1) (fit x2) then x1 else x2)
              else (if key_lt (fit x2) (fit x1) then x1 else x2))
    | _, _ => None
    end) (seq 0 (2 * mating_size))).

(** NSGAII.py:194-204 followed by 206-210 and 95-96 for offspring number i. *)
Definition make_child (P : params) (D : step_draws) (pop : list indiv) (mating : list nat)
           (mating_size i : nat) : option indiv :=
  match nth_error mating i, nth_error mating (mating_size + i) with
  | Some a, Some b =>
      match nth_error pop a, nth_error pop b with
      | Some ia, Some ib =>
          match crossover (p_raw_a P) (p_raw_b P) (cx_skip D i) (cx_rand D i) (cx_swap D i)
                          (p_half P) (p_epsilon P) (cx_r0 D i) (p_crossover_rate P) (cx_pick D i)
                          (iv ia) (iv ib) (p_dims P) with
          | None => None
          | Some x =>
              match mutate (p_raw P) (mu_sel D i) (mu_rnd D i) (p_mutation_rate P) x (p_dims P) with
              | None => None
              | Some y => Some (mk_indiv (p_trim P y) None)
              end
          end
      | _, _ => None
      end
  | _, _ => None
  end.

(** The individuals at the given positions. NSGAII.py:172-192. *)
Definition select_positions (l : list indiv) (pos : list nat) : option (list indiv) :=
  collect (map (nth_error l) pos).

(** NSGAII.py:88-99; None = an exception. *)
Definition step (P : params) (D : step_draws) (s : nstate) : option nstate :=
  match sort_and_select P s with
  | None => None
  | Some (surv, fit) =>
      match mating_selection D fit surv (mating_size s) with
      | None => None
      | Some mating =>
          match collect (map (make_child P D (individuals s) mating (mating_size s))
                             (seq 0 (mating_size s))),
                select_positions (individuals s) surv with
          | Some children, Some kept =>
              Some (calculate_objectives P (with_individuals s (kept ++ children)))
          | _, _ => None
          end
      end
  end.

(** NSGAII.py:81-86: finish / finalized_population: new state and returned vectors. *)
Definition finish (P : params) (s : nstate) : option (nstate * list vec) :=
  let s1 := calculate_objectives P s in
  match sort_and_select P s1 with
  | None => None
  | Some (surv, _) =>
      match select_positions (individuals s1) surv with
      | None => None
      | Some kept => Some (with_individuals s1 kept, map iv kept)
      end
  end.

(** NSGAII.py:53-66 with the population setter 75-79; [mating c n] is
    int(mating_population_size * n), [ar] the fitness archive handed in. *)
Definition init (P : params) (mating : nat -> nat) (ar : option (list (vec * vec)))
           (population : list vec) : nstate :=
  let inds := map (fun x => mk_indiv (p_trim P x) None) population in
  calculate_objectives P
    {| individuals := inds; population_size := length inds; mating_size := mating (length inds);
       cost := 0; archive := ar; evals := [] |}.

(** Calls a user makes on the driver. NSGAII.py:68-99. *)
Inductive op := Step (D : step_draws) | Finalize.

(** NSGAII.py:68-99: one call. *)
Definition run_op (P : params) (s : nstate) (o : op) : option nstate :=
  match o with
  | Step D => step P D s
  | Finalize => match finish P s with Some (s', _) => Some s' | None => None end
  end.

(** NSGAII.py:68-99: a history of calls. *)
Fixpoint run_ops (P : params) (s : nstate) (ops : list op) : option nstate :=
  match ops with
  | [] => Some s
  | o :: ops' => match run_op P s o with Some s' => run_ops P s' ops' | None => None end
  end.
