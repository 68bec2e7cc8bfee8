(** Model of the SPEA2 driver.  Source: algorithms/SPEA2/SPEA2.py.
    An individual is a Python dict; its identity is its position in archive + population
    (no dict occurs twice in that list).  Euclidean distances are kept as their squares,
    which order and compare in the same way; the square root is taken where the value is used.
    None = exception. *)
From Verif Require Import Spec DomModel NDSortModel VarModel SortModel NsgaModel MetModel.
From Coq Require Import Reals.
Local Open Scope nat_scope.

(** a <= b on floats, as real numbers. SPEA2.py:106-111, 188-198. *)
Definition Rleb (a b : R) : bool := if Rle_dec a b then true else false.

(** The entries "value" and "objectives" of an individual (lines 62, 119, 122). *)
Record member := mk_member { m_value : vec; m_objectives : vec }.

Section Fitness.
  (** archive + population *)
  Variable union : list member.
  (** SPEA2.py:93-102: the members of the union, named by position. *)
  Definition ids : list nat := seq 0 (length union).
  (** SPEA2.py:126-130: p["objectives"]. *)
  Definition obj (p : nat) : vec := m_objectives (nth p union (mk_member [] [])).
  (** SPEA2.py:106-111: p["value"]. *)
  Definition value (p : nat) : vec := m_value (nth p union (mk_member [] [])).

  (** SPEA2.py:126-130: p["dominates"]. *)
  Definition strength (p : nat) : nat :=
    length (filter (fun x => negb (p =? x) && dominates (obj p) (obj x)) ids).

  (** SPEA2.py:103-104 *)
  Definition raw_fitness (p1 : nat) : nat :=
    fold_left (fun s y => s + strength y) (filter (fun y => dominates (obj y) (obj p1)) ids) 0.

  (** SPEA2.py:106-111; int(math.sqrt(n)) is the integer square root.  None = IndexError. *)
  Definition density (p1 : nat) : option R :=
    let distances := stable_sort Z.leb (map (fun p2 => euclid_sqr_distance (obj p1) (obj p2)) ids) in
    match nth_error distances (Nat.sqrt (length ids)) with
    | None => None
    | Some d => Some (1 / (sqrt (IZR d) + 2))%R
    end.

  (** SPEA2.py:95-100 *)
  Definition calculate_fitnesses : option (list R) :=
    comprehension (fun p => match density p with
                            | None => None
                            | Some d => Some (INR (raw_fitness p) + d)%R
                            end) ids.

  (** ---- environmental selection ---- *)
  Variable fit : nat -> R.   (* p["fitness"] *)

  (** SPEA2.py:157-163 *)
  Fixpoint get_domination_index (sorted_pop : list nat) : nat :=
    match sorted_pop with
    | [] => 0
    | p :: l => if Rle_dec (fit p) 1 then S (get_domination_index l) else 0
    end.

  (** Entry [level] of a row of sorted distances. SPEA2.py:188-201. *)
  Definition entry (level : nat) (d : nat * list Z) : Z := nth level (snd d) 0%Z.

  (** SPEA2.py:193-198: the entries tied with the first. *)
  Fixpoint ties (level : nat) (first : nat * list Z) (l : list (nat * list Z)) : list (nat * list Z) :=
    match l with
    | [] => []
    | d :: l' => if (entry level d =? entry level first)%Z then d :: ties level first l' else []
    end.

  (** SPEA2.py:188-203.  None = IndexError, or out of fuel (never the case, C31). *)
  Fixpoint get_min (fuel : nat) (distances : list (nat * list Z)) (level : nat) : option (nat * list Z) :=
    if length distances <=? level then hd_error distances
    else
      if existsb (fun d => length (snd d) <=? level) distances then None
      else
        match stable_sort (fun a b => (entry level a <=? entry level b)%Z) distances with
        | [] => None
        | first :: rest =>
            match ties level first rest with
            | [] => Some first
            | more =>
                match fuel with
                | O => None
                | S fuel' => get_min fuel' (first :: more) (S level)
                end
            end
        end.

  (** SPEA2.py:165-186 *)
  Definition row (pop : list nat) (p : nat) : list Z :=
    stable_sort Z.leb (map (fun p2 => euclid_sqr_distance (obj p) (obj p2)) pop).
  (** SPEA2.py:165-186. *)
  Definition choose_to_truncate (pop : list nat) : option nat :=
    match get_min (S (length pop)) (map (fun p => (p, row pop p)) pop) 0 with
    | Some d => Some (fst d)
    | None => None
    end.

  (** Equality of two dicts: the same object or equal entries. SPEA2.py:153. *)
  Definition dict_eq (p q : nat) : bool :=
    (p =? q) ||
    (vec_eqb (value p) (value q) && vec_eqb (obj p) (obj q) &&
     (strength p =? strength q) && (if Req_EM_T (fit p) (fit q) then true else false)).

  (** list.remove: drops the first equal element; ValueError if there is none.
      SPEA2.py:153. *)
  Fixpoint list_remove (x : nat) (l : list nat) : option (list nat) :=
    match l with
    | [] => None
    | y :: l' =>
        if dict_eq x y then Some l'
        else match list_remove x l' with Some r => Some (y :: r) | None => None end
    end.

  (** SPEA2.py:151-153; None also = out of fuel (never the case, C31). *)
  Fixpoint truncate (fuel archive_size : nat) (environment : list nat) : option (list nat) :=
    if length environment <=? archive_size then Some environment
    else match fuel with
         | O => None
         | S fuel' =>
             match choose_to_truncate environment with
             | None => None
             | Some t =>
                 match list_remove t environment with
                 | None => None
                 | Some e => truncate fuel' archive_size e
                 end
             end
         end.

  (** SPEA2.py:140-155 *)
  Definition environmental_selection (archive_size : nat) : option (list nat) :=
    let sorted_union := stable_sort (fun a b => Rleb (fit a) (fit b)) ids in
    let index := get_domination_index sorted_union in
    let environment := firstn index sorted_union in
    if length environment <? archive_size then
      let diff_size := archive_size - length environment in
      Some (environment ++ firstn diff_size (skipn index sorted_union))
    else if archive_size <? length environment then
      truncate (length environment) archive_size environment
    else Some environment.
End Fitness.

(** SPEA2.py:93-102 and 140-155: what step does to archive + population. *)
Definition select_archive (union : list member) (archive_size : nat) : option (list nat * (nat -> R)) :=
  match calculate_fitnesses union with
  | None => None
  | Some fits =>
      let fit p := nth p fits 0%R in
      match environmental_selection union fit archive_size with
      | None => None
      | Some e => Some (e, fit)
      end
  end.

(** ---- the driver ---- *)

(** The random draws of one step: the two positions random.sample draws for each of the two
    tournaments of child i, and the draws of its crossover and mutation.
    SPEA2.py:17-23, 70-90. *)
Record spea_draws := {
  t1 : nat -> nat * nat; t2 : nat -> nat * nat;
  s_r0 : nat -> Z; s_pick : nat -> bool;
  s_skip : nat -> nat -> Z; s_rand : nat -> nat -> Z; s_swap : nat -> nat -> Z;
  s_sel : nat -> nat -> Z; s_rnd : nat -> nat -> Z
}.

(** Mutable state; [spea_evals] is the trace of vectors handed to the problem's objectives.
    SPEA2.py:45-62. *)
Record spea_state := {
  spea_population : list vec;
  spea_archive : list member;
  spea_cost : nat;
  spea_evals : list vec
}.

(** SPEA2.py:113-124, one individual; the fitness archive is not written by this driver. *)
Definition spea_evaluate (f : vec -> vec) (fa : option (list (vec * vec))) (population_length : nat)
           (acc : list member * (nat * list vec)) (v : vec) : list member * (nat * list vec) :=
  let '(done, (_, tr)) := acc in
  match (match fa with Some m => lookup v m | None => None end) with
  | Some o => (done ++ [mk_member v o], (0, tr))
  | None => (done ++ [mk_member v (f v)], (population_length, tr ++ [v]))
  end.
(** SPEA2.py:113-124: the evaluated individuals, the returned cost and the new trace. *)
Definition spea_objectives (f : vec -> vec) (fa : option (list (vec * vec))) (pop : list vec)
           (tr : list vec) : list member * (nat * list vec) :=
  fold_left (spea_evaluate f fa (length pop)) pop ([], (0, tr)).

(** SPEA2.py:17-23: min of two sampled members by fitness, the first on ties.
    random.sample draws two different positions; ValueError when there are fewer than two. *)
Definition tournament (fit : nat -> R) (pool : list nat) (draw : nat * nat) : option nat :=
  let '(i, j) := draw in
  if i =? j then None
  else match nth_error pool i, nth_error pool j with
       | Some a, Some b => Some (if Rleb (fit a) (fit b) then a else b)
       | _, _ => None
       end.

(** SPEA2.py:75-88 for child number i; [pool] are the positions of the new archive. *)
Definition spea_child (P : params) (D : spea_draws) (union : list member) (fit : nat -> R)
           (pool : list nat) (i : nat) : option vec :=
  match tournament fit pool (t1 D i), tournament fit pool (t2 D i) with
  | Some a, Some b =>
      match crossover (p_raw_a P) (p_raw_b P) (s_skip D i) (s_rand D i) (s_swap D i)
                      (p_half P) (p_epsilon P) (s_r0 D i) (p_crossover_rate P) (s_pick D i)
                      (value union a) (value union b) (p_dims P) with
      | None => None
      | Some x =>
          match mutate (p_raw P) (s_sel D i) (s_rnd D i) (p_mutation_rate P) x (p_dims P) with
          | None => None
          | Some y => Some (p_trim P y)
          end
      end
  | _, _ => None
  end.

(** SPEA2.py:70-90 *)
Definition spea_step (P : params) (fa : option (list (vec * vec))) (archive_size : nat)
           (D : spea_draws) (s : spea_state) : option spea_state :=
  let '(pop, (c, tr)) := spea_objectives (p_f P) fa (spea_population s) (spea_evals s) in
  let union := spea_archive s ++ pop in
  match select_archive union archive_size with
  | None => None
  | Some (e, fit) =>
      match collect (map (spea_child P D union fit e) (seq 0 (length (spea_population s)))) with
      | None => None
      | Some children =>
          Some {| spea_population := children;
                  spea_archive := map (fun p => nth p union (mk_member [] [])) e;
                  spea_cost := spea_cost s + c; spea_evals := tr |}
      end
  end.

(** SPEA2.py:48-51; Driver.__init__ sets cost to 0. *)
Definition spea_init (P : params) (population : list vec) : spea_state :=
  {| spea_population := map (p_trim P) population; spea_archive := []; spea_cost := 0; spea_evals := [] |}.

(** SPEA2.py:64-65 *)
Definition spea_finalized (s : spea_state) : list vec := map m_value (spea_archive s).

(** A run: one [spea_draws] per step; archive_size = len(population) (line 50). *)
Fixpoint spea_steps (P : params) (fa : option (list (vec * vec))) (archive_size : nat)
         (Ds : list spea_draws) (s : spea_state) : option spea_state :=
  match Ds with
  | [] => Some s
  | D :: Ds' => match spea_step P fa archive_size D s with
                | Some s' => spea_steps P fa archive_size Ds' s'
                | None => None
                end
  end.
(** SPEA2.py:48-90: the constructor and any number of steps. *)
Definition spea_run (P : params) (fa : option (list (vec * vec))) (population : list vec)
           (Ds : list spea_draws) : option spea_state :=
  spea_steps P fa (length population) Ds (spea_init P population).
