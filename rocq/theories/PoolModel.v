(** Model of the evaluation of the Pareto dominance indicator with its two caches on disk.
    Source: simulation/metrics_processor.py:63-67 (the cache of one evaluation), 70-123 (get_metric for
    this metric), 162-185 (pareto_dominance_indicator), 188-270 (preload_results_for_problem,
    filter_non_dominated_in_cache, clear_old_pdi_metrics).  No proofs here.
    One problem directory is modelled.  Its result files are listed in the order in which the loops of
    lines 191-217 visit them; how run numbers arise is in PdiModel (C108).  None = an exception. *)
From Verif Require Import Spec DomModel SortModel MetModel PyStr.
From Coq Require Import QArith String List.
Local Open Scope nat_scope.

(** The key of a result within the problem: file name (the budget) and run number.
    metrics_processor.py:211-213, 222. *)
Definition key := (string * nat)%type.
(** metrics_processor.py:211-213, 222: equality of such keys. *)
Definition key_eqb (a b : key) : bool := String.eqb (fst a) (fst b) && (snd a =? snd b).
(** Python's order on such tuples. metrics_processor.py:222. *)
Definition key_leb (a b : key) : bool :=
  if String.eqb (fst a) (fst b) then snd a <=? snd b else str_leb (fst a) (fst b).

(** Values of the dictionary "cache": a list of fitness lists until line 255, then a set. *)
Inductive pool_entry := Raw (solutions : list (list vec)) | Pool (vectors : list vec).
(** metrics_processor.py:63-67: the dictionary handed from call to call. *)
Definition cache := list (key * pool_entry).

(** metrics_processor.py:223: cache[key]. *)
Fixpoint find {A} (k : key) (d : list (key * A)) : option A :=
  match d with
  | [] => None
  | (k', a) :: d' => if key_eqb k k' then Some a else find k d'
  end.
(** d[k] = a. metrics_processor.py:240-251. *)
Fixpoint put {A} (k : key) (a : A) (d : list (key * A)) : list (key * A) :=
  match d with
  | [] => [(k, a)]
  | (k', a') :: d' => if key_eqb k k' then (k', a) :: d' else (k', a') :: put k a d'
  end.

Section Pools.
  Variable ID : Type.     (* a result file *)
  Variable id_eqb : ID -> ID -> bool.

  (** A result file: which one, its key and the fitnesses in it. *)
  Notation result := (ID * (key * list vec))%type.

  (** The file <problem>_nondominated. metrics_processor.py:225-230, 247-249. *)
  Inductive cache_file :=
  | Missing
  | Half                                            (* written only in part *)
  | Stored (solutions : list pool_entry) (nondominated : list (key * list vec)).

  (** Stored values of the metric with the set they were computed from.
      metrics_processor.py:70-123, 188-270. *)
  Record disk := {
    results : list result;
    file : cache_file;
    metrics : list (ID * (Q * pool_entry))
  }.

  (** metrics_processor.py:211-215, cache being a defaultdict(list); AttributeError (a set has no append)
      is swallowed in line 216. *)
  Definition append_result (c : cache) (r : result) : cache :=
    let '(_, (k, f)) := r in
    match find k c with
    | None => put k (Raw [f]) c
    | Some (Raw l) => put k (Raw (l ++ [f])) c
    | Some (Pool _) => c
    end.

  (** metrics_processor.py:232: equality of lists of vectors. *)
  Fixpoint vecs_eqb (a b : list vec) : bool :=
    match a, b with
    | [], [] => true
    | x :: a', y :: b' => vec_eqb x y && vecs_eqb a' b'
    | _, _ => false
    end.
  (** metrics_processor.py:232: equality of lists of those. *)
  Fixpoint lists_eqb (a b : list (list vec)) : bool :=
    match a, b with
    | [], [] => true
    | x :: a', y :: b' => vecs_eqb x y && lists_eqb a' b'
    | _, _ => false
    end.
  (** Equality of sets of tuples. metrics_processor.py:232. *)
  Definition sets_eqb (a b : list vec) : bool :=
    forallb (fun v => vec_in v b) a && forallb (fun v => vec_in v a) b.
  (** metrics_processor.py:232: equality of two values; a list never equals a set. *)
  Definition entry_eqb (a b : pool_entry) : bool :=
    match a, b with
    | Raw x, Raw y => lists_eqb x y
    | Pool x, Pool y => sets_eqb x y
    | _, _ => false
    end.
  (** metrics_processor.py:232: equality of lists of values. *)
  Fixpoint entries_eqb (a b : list pool_entry) : bool :=
    match a, b with
    | [], [] => true
    | x :: a', y :: b' => entry_eqb x y && entries_eqb a' b'
    | _, _ => false
    end.

  (** metrics_processor.py:222-223 *)
  Definition problem_keys (c : cache) : list key := stable_sort key_leb (map fst c).
  (** metrics_processor.py:223. *)
  Definition problem_solutions (c : cache) : list pool_entry :=
    map (fun k => match find k c with Some e => e | None => Raw [] end) (problem_keys c).

  (** metrics_processor.py:243-245; iterating over the numbers of a vector of a set raises TypeError (vectors
      are not empty). *)
  Definition nondominated_of (e : pool_entry) : option (list vec) :=
    match e with
    | Raw solutions => Some (common_front solutions)
    | Pool [] => Some []
    | Pool (_ :: _) => None
    end.
  (** metrics_processor.py:240-245 *)
  Fixpoint recompute (c : cache) (keys : list key) (nondominated : list (key * list vec))
    : option (list (key * list vec)) :=
    match keys with
    | [] => Some nondominated
    | k :: keys' =>
        match nondominated_of (match find k c with Some e => e | None => Raw [] end) with
        | None => None
        | Some p => recompute c keys' (put k p nondominated)
        end
    end.
  (** cache.update(problem_nondominated), line 253 *)
  Definition update (c : cache) (nondominated : list (key * list vec)) : cache :=
    fold_left (fun c kp => put (fst kp) (Pool (snd kp)) c) nondominated c.

  (** metrics_processor.py:255-270: the cache file and the stored values of the metric are removed.  (The
      pattern of line 261 is matched against the whole path; it is assumed that the directories above the
      problem's do not match it.) *)
  Definition clear_old (d : disk) : disk := {| results := results d; file := Missing; metrics := [] |}.

  (** metrics_processor.py:219-252; EOFError and UnpicklingError are no IOErrors (line 228). *)
  Definition filter_non_dominated_in_cache (d : disk) (c : cache) : option (disk * cache) :=
    let keys := problem_keys c in
    let sols := problem_solutions c in
    match (match file d with
           | Missing => Some (None, [])
           | Half => None
           | Stored s nd => Some (Some s, nd)
           end) with
    | None => None
    | Some (s, nd) =>
        if (match s with
            | None => false
            | Some [] => false
            | Some l => entries_eqb l sols
            end)
        then Some (d, update c nd)
        else
          match recompute c keys nd with
          | None => None
          | Some nd' =>
              let d' := clear_old d in
              Some ({| results := results d'; file := Stored sols nd'; metrics := metrics d' |}, update c nd')
          end
    end.

  (** metrics_processor.py:188-216 *)
  Definition preload (d : disk) (c : cache) : option (disk * cache) :=
    filter_non_dominated_in_cache d (fold_left append_result (results d) c).

  (** metrics_processor.py:70-123: the stored value of the metric. *)
  Fixpoint stored_metric (i : ID) (l : list (ID * (Q * pool_entry))) : option (Q * pool_entry) :=
    match l with
    | [] => None
    | (j, m) :: l' => if id_eqb i j then Some m else stored_metric i l'
    end.

  (** metrics/metrics_utils.py:94-98 on what the cache holds; no vector is equal to one of the lists of an
      unfiltered entry. *)
  Definition dominance_indicator (f : list vec) (all_solutions : pool_entry) : option Q :=
    match all_solutions with
    | Pool p => pareto_dominance_indicator f (filter_not_dominated (fun v : vec => v) f) p
    | Raw [] => None
    | Raw (_ :: _) => Some 0%Q
    end.

  (** metrics_processor.py:70-123 for this metric: the stored value unless it was computed with another set
      (an exception then); otherwise it is computed and stored. *)
  Definition get_metric (d : disk) (r : result) (all_solutions : pool_entry) : option (disk * Q) :=
    let '(i, (_, f)) := r in
    match stored_metric i (metrics d) with
    | Some (value, params) => if entry_eqb params all_solutions then Some (d, value) else None
    | None =>
        match dominance_indicator f all_solutions with
        | None => None
        | Some q => Some ({| results := results d; file := file d; metrics := (i, (q, all_solutions)) :: metrics d |}, q)
        end
    end.

  (** metrics_processor.py:162-185; the cache is a defaultdict, so line 169 never raises KeyError. *)
  Definition indicator (d : disk) (c : cache) (r : result) : option (disk * cache * Q) :=
    let k := fst (snd r) in
    match (match find k c with Some _ => Some (d, c) | None => preload d c end) with
    | None => None
    | Some (d1, c1) =>
        let '(c2, all_solutions) := match find k c1 with
                                    | Some e => (c1, e)
                                    | None => (put k (Raw []) c1, Raw [])
                                    end in
        match get_metric d1 r all_solutions with
        | None => None
        | Some (d2, q) => Some (d2, c2, q)
        end
    end.

  (** metrics_processor.py:63-67: the indicator of the listed results, with a fresh cache. *)
  Fixpoint evaluate_with (d : disk) (c : cache) (rs : list result) : option (disk * list Q) :=
    match rs with
    | [] => Some (d, [])
    | r :: rs' =>
        match indicator d c r with
        | None => None
        | Some (d1, c1, q) =>
            match evaluate_with d1 c1 rs' with
            | None => None
            | Some (d2, qs) => Some (d2, q :: qs)
            end
        end
    end.
  (** metrics_processor.py:63-67: starting from an empty cache. *)
  Definition evaluate (d : disk) (rs : list result) : option (disk * list Q) := evaluate_with d [] rs.
End Pools.
Arguments results {ID}. Arguments file {ID}. Arguments metrics {ID}. Arguments Build_disk {ID}.
