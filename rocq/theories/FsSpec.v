(** Specification of stored results. *)
Require Import String Ascii List Arith NArith Bool.
From Verif Require Import PyStr IdModel FsModel.
Import ListNotations.
Open Scope string_scope.

(** Where a result lives below the results directory. *)
Record location : Type := {
  l_problem : string; l_algo : string; l_id : string; l_name : string
}.

Definition location_eq_dec : forall a b : location, {a = b} + {a <> b}.
Proof. decide equality; apply string_dec. Defined.

Definition loc_dir (root : string) (l : location) : path :=
  run_path root (l_problem l) (l_algo l) (l_id l).

Definition loc_path (root : string) (l : location) : path :=
  result_path (loc_dir root l) (l_name l).

(** How far a store gets: to its end, only into making directories ([j] of them made), or into
    writing the file ([m] bytes written). *)
Inductive reach : Type := Finished | InDirs (j : nat) | InWrite (m : nat).

Section Histories.
  Variable R : Type.
  Variable pickle : R -> string.

  (** A store, possibly cut short by a crash; what comes after a crash is done by later
      processes. *)
  Record event : Type := { e_loc : location; e_result : R; e_reach : reach }.

  Definition steps (s : fs) (dir : path) (total : nat) (x : reach) : nat :=
    match x with
    | Finished => total
    | InDirs j => Nat.min j (List.length (mkdir_ops s dir))
    | InWrite m => List.length (mkdir_ops s dir) + S m
    end.

  Definition run_event (root : string) (s : fs) (e : event) : fs :=
    let ops := store_ops s (loc_dir root (e_loc e)) (l_name (e_loc e)) (pickle (e_result e)) in
    apply_all s (firstn (steps s (loc_dir root (e_loc e)) (List.length ops) (e_reach e)) ops).

  Definition run_events (root : string) (s : fs) (h : list event) : fs :=
    fold_left (run_event root) h s.

  (** What a history says about one location. *)
  Inductive word : Type :=
  | Untouched                       (* no store got to its file *)
  | Holds (r : R)                   (* the last store that got to it finished *)
  | Torn (r : R) (m : nat).         (* the last store that got to it wrote [m] bytes of [r] *)

  Definition hear (l : location) (w : word) (e : event) : word :=
    if location_eq_dec (e_loc e) l then
      match e_reach e with
      | Finished => Holds (e_result e)
      | InDirs _ => w
      | InWrite m => Torn (e_result e) m
      end
    else w.

  Definition outcome (h : list event) (l : location) : word := fold_left (hear l) h Untouched.
End Histories.
Arguments Untouched {R}. Arguments Holds {R}. Arguments Torn {R}.

(** The layout below the results directory: directories down to the runs, files in them. *)
Record usable (root : string) (s : fs) : Prop := {
  us_dirs : forall p a i q b, In q (prefixes (run_path root p a i)) ->
    lookup s q <> Some (File b);
  us_files : forall l, lookup s (loc_path root l) <> Some Dir
}.

(** The codec: what was pickled is unpickled, and a cut pickle is not. *)
Definition faithful {R : Type} (pickle : R -> string) (unpickle : string -> option R) : Prop :=
  forall r, unpickle (pickle r) = Some r.

Definition cut_detected {R : Type} (pickle : R -> string) (unpickle : string -> option R)
  : Prop :=
  forall r m, (m < String.length (pickle r))%nat -> unpickle (substring 0 m (pickle r)) = None.

(** What run [id] holds for number [k]. *)
Definition held {R : Type} (unpickle : string -> option R) (s : fs) (base : path) (id : string)
  (k : N) : option R :=
  match lookup s (result_path (base ++ [id])%list (str_of_N k)) with
  | Some (File b) => unpickle b
  | _ => None
  end.

(** Runs with their numbers. *)
Fixpoint number_from (i : nat) (ids : list string) : list (nat * string) :=
  match ids with
  | [] => []
  | x :: r => (i, x) :: number_from (S i) r
  end.

(** The entry for number [k]: the result of every run that holds one, in run order. *)
Definition entry {R : Type} (unpickle : string -> option R) (s : fs) (base : path)
  (ids : list string) (k : N) : list (nat * R) :=
  flat_map (fun ix => match held unpickle s base (snd ix) k with
                      | Some r => [(fst ix, r)]
                      | None => []
                      end) (number_from 0 ids).

(** A directory in which every file with a number for a name has the number in its usual form
    and holds a complete pickle. *)
Definition orderly {R : Type} (unpickle : string -> option R) (s : fs) (dir : path) : Prop :=
  forall name st k, In name (children s dir) -> numbered name = Some (st, k) ->
    name = str_of_N k ++ ".pickle" /\
    forall b, lookup s (dir ++ [name])%list = Some (File b) -> unpickle b <> None.

(** Every path has its parents as directories, and is listed once. *)
Record tree (s : fs) : Prop := {
  tr_parents : forall q p n, In q (prefixes p) -> q <> p -> lookup s p = Some n ->
    lookup s q = Some Dir;
  tr_once : NoDup (map fst s)
}.

(** * Finished runs *)
Section Runs.
  Variable R : Type.

  (** The store finished, under a number, in the directory of a recognised run. *)
  Definition regular (e : event R) : Prop :=
    e_reach R e = Finished /\ parse_id (l_id (e_loc R e)) <> None /\
    exists k, l_name (e_loc R e) = str_of_N k.

  (** The event belongs to run [id] of [algo] on [problem]. *)
  Definition of_run (problem algo id : string) (e : event R) : Prop :=
    l_problem (e_loc R e) = problem /\ l_algo (e_loc R e) = algo /\ l_id (e_loc R e) = id.

  (** The last result stored by run [id] under number [k]. *)
  Definition last_stored (h : list (event R)) (problem algo id : string) (k : N) : option R :=
    match outcome R h {| l_problem := problem; l_algo := algo; l_id := id;
                         l_name := str_of_N k |} with
    | Holds r => Some r
    | _ => None
    end.
End Runs.

(** A name without a dot. *)
Definition no_dot (s : string) : Prop := forall x y, s <> x ++ "." ++ y.

(** * Metric queries *)
Section Queries.
  Variables V P F : Type.
  Variable metric : string -> F -> P -> option V.
  Variable fitness : path -> string -> F.

  Record query : Type := { q_dir : path; q_name : string; q_metric : string; q_params : P }.

  Definition same_key (a b : query) : Prop :=
    q_dir a = q_dir b /\ q_name a = q_name b /\ q_metric a = q_metric b.

  Definition same_keyb (a b : query) : bool :=
    path_eqb (q_dir a) (q_dir b) && String.eqb (q_name a) (q_name b) &&
    String.eqb (q_metric a) (q_metric b).

  (** The value of the metric itself. *)
  Definition true_value (q : query) : option V :=
    metric (q_metric q) (fitness (q_dir q) (q_name q)) (q_params q).

  (** The parameters of the first of the earlier queries for this result and metric that had a
      value. *)
  Definition remembered (earlier : list query) (q : query) : option P :=
    match find (fun a => same_keyb a q && if true_value a then true else false) earlier with
    | Some a => Some (q_params a)
    | None => None
    end.

  (** What a query must answer, and whether it may compute. *)
  Inductive answers (earlier : list query) (q : query) : fres V -> bool -> Prop :=
  | first_time : forall v, remembered earlier q = None -> true_value q = Some v ->
      answers earlier q (Good v) true
  | metric_raises : remembered earlier q = None -> true_value q = None ->
      answers earlier q (Bad MetricError) true
  | again : forall v, remembered earlier q = Some (q_params q) -> true_value q = Some v ->
      answers earlier q (Good v) false
  | other_params : forall ps, remembered earlier q = Some ps -> ps <> q_params q ->
      answers earlier q (Bad ParamsChanged) false.

  (** The query is about a result in an existing directory, under a name without a dot. *)
  Definition well (s : fs) (q : query) : Prop :=
    q_dir q <> [] /\ (forall p, In p (prefixes (q_dir q)) -> lookup s p = Some Dir) /\
    no_dot (q_name q).

  (** Queries run one after the other: the answers and whether each computed. *)
  Variable eqP : P -> P -> bool.
  Variable pickle_m : V * P -> string.
  Variable unpickle_m : string -> option (V * P).

  Definition ask (s : fs) (q : query) : fs * fres V * bool :=
    get_metric V P F eqP metric pickle_m unpickle_m s (q_dir q) (q_name q) (q_metric q)
      (fitness (q_dir q) (q_name q)) (q_params q).

  Fixpoint ask_all (s : fs) (qs : list query) : fs * list (fres V * bool) :=
    match qs with
    | [] => (s, [])
    | q :: rest =>
        let r := ask s q in
        let rr := ask_all (fst (fst r)) rest in
        (fst rr, (snd (fst r), snd r) :: snd rr)
    end.
End Queries.
