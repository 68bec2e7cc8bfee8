(** Files: simulation/serializer.py, simulation/serialization.py:22-90 and the metric cache of
    simulation/metrics_processor.py:70-123.

    The file system is a finite map from paths (lists of names) to directories and files.  A
    path name is one component: names with a slash are not modelled.  A write reaches the disk
    one byte at a time, so that a crash can leave any prefix (buffering only restricts which
    prefixes occur).  Links, permissions, quotas and concurrent processes are not modelled. *)
Require Import String Ascii List Arith NArith Bool.
From Verif Require Import PyStr IdModel.
Import ListNotations.
Open Scope string_scope.

(** pathlib.Path, as built at serializer.py:37-55. *)
Definition path := list string.

(** what is stored at a path (serializer.py:27-34). *)
Inductive node : Type := Dir | File (bytes : string).

(** the tree the Serializer works on (serializer.py:37-59). *)
Definition fs := list (path * node).

(** serializer.py:54-55: equality of paths. *)
Definition path_eqb (p q : path) : bool :=
  if list_eq_dec string_dec p q then true else false.

(** serializer.py:27-34: what is at a path. *)
Fixpoint lookup (s : fs) (p : path) : option node :=
  match s with
  | [] => None
  | (q, n) :: s' => if path_eqb q p then Some n else lookup s' p
  end.

(** serializer.py:32-34, 46-52: putting something at a path. *)
Fixpoint set (s : fs) (p : path) (n : node) : fs :=
  match s with
  | [] => [(p, n)]
  | (q, m) :: s' => if path_eqb q p then (q, n) :: s' else (q, m) :: set s' p n
  end.

(** The name of [q] inside directory [p]. serialization.py:22-45, 62-79. *)
Fixpoint child (p q : path) : option string :=
  match p, q with
  | [], [n] => Some n
  | x :: p', y :: q' => if String.eqb x y then child p' q' else None
  | _, _ => None
  end.

(** [Path.iterdir()]: the order is not specified; wherever the code sorts, it does not matter.
    serialization.py:22-45, 62-79. *)
Definition children (s : fs) (p : path) : list string :=
  flat_map (fun e => match child p (fst e) with Some n => [n] | None => [] end) s.

(** All non-empty prefixes of a path, shortest first. serializer.py:46-52. *)
Fixpoint prefixes (p : path) : list path :=
  match p with
  | [] => []
  | x :: p' => [x] :: map (cons x) (prefixes p')
  end.

(** serializer.py:27-59, metrics_processor.py:70-123: the exceptions that matter. *)
Inductive err : Type :=
  FileNotFound | IsADirectory | NotADirectory | BadPickle | ParamsChanged | MetricError.

(** serializer.py:57-59: a result or an exception. *)
Inductive fres (A : Type) : Type := Good (a : A) | Bad (e : err).
Arguments Good {A}. Arguments Bad {A}.

(** One step of a write. serializer.py:32-34, 46-52. *)
Inductive op : Type :=
| Mkdir (p : path)
| Trunc (p : path)
| Append (p : path) (c : ascii).

(** serializer.py:32-34, 46-52: the effect of one step. *)
Definition apply (s : fs) (o : op) : fs :=
  match o with
  | Mkdir p => set s p Dir
  | Trunc p => set s p (File "")
  | Append p c =>
      match lookup s p with
      | Some (File b) => set s p (File (b ++ String c ""))
      | _ => s
      end
  end.

(** serializer.py:32-34, 46-52: the effect of several. *)
Definition apply_all (s : fs) (os : list op) : fs := fold_left apply os s.

(** serializer.py:46-52: Path.is_file. *)
Definition is_file (s : fs) (p : path) : bool :=
  match lookup s p with Some (File _) => true | _ => false end.

(** serializer.py:46-52: not Path.exists. *)
Definition is_missing (s : fs) (p : path) : bool :=
  match lookup s p with None => true | _ => false end.

(** serializer.py:34: the bytes as they are written one after the other. *)
Fixpoint chars (s : string) : list ascii :=
  match s with EmptyString => [] | String c s' => c :: chars s' end.

(** serializer.py:32-34 [save_file]: open for writing (which truncates), then write. *)
Definition write_ops (p : path) (bytes : string) : list op :=
  Trunc p :: map (Append p) (chars bytes).

(** serializer.py:54-55 [get_result_path] *)
Definition result_path (dir : path) (name : string) : path :=
  (dir ++ [(name ++ ".pickle")%string])%list.

(** serializer.py:46-52 [Serializer.store]: the directories it makes, whether it gets to write,
    and the steps of the write.  [mkdir(parents=True)] makes the missing prefixes in order; a
    file in the way makes it, or the [open] after it, raise. *)
Definition mkdir_ops (s : fs) (dir : path) : list op :=
  map Mkdir (filter (is_missing s) (prefixes dir)).

(** serializer.py:46-52: the exception it raises, if any. *)
Definition store_error (s : fs) (dir : path) (name : string) : option err :=
  if existsb (is_file s) (prefixes dir) then Some NotADirectory
  else match lookup s (result_path dir name) with
       | Some Dir => Some IsADirectory
       | _ => None
       end.

(** serializer.py:46-52: its steps. *)
Definition store_ops (s : fs) (dir : path) (name : string) (bytes : string) : list op :=
  if existsb (is_file s) (prefixes dir) then []
  else (mkdir_ops s dir ++
       match lookup s (result_path dir name) with
       | Some Dir => []
       | _ => write_ops (result_path dir name) bytes
       end)%list.

(** serializer.py:27-29 [load_file] up to unpickling. *)
Definition read (s : fs) (p : path) : fres string :=
  if existsb (is_file s) (prefixes (removelast p)) then Bad NotADirectory
  else match lookup s p with
       | None => Bad FileNotFound
       | Some Dir => Bad IsADirectory
       | Some (File b) => Good b
       end.

(** serialization.py:68 [re.fullmatch("[0-9]+\.pickle", name)] with [int] of the group;
    serializer.py:22 [path.with_suffix("").name] is the group itself on such names. *)
Definition stem (name : string) : option string :=
  let n := (String.length name - 7)%nat in
  if String.eqb (substring n 7 name) ".pickle" then Some (substring 0 n name) else None.

(** serialization.py:62-79: the name and the number of a result file. *)
Definition numbered (name : string) : option (string * N) :=
  match stem name with
  | Some st => match int_of_str st with Some k => Some (st, k) | None => None end
  | None => None
  end.

Section Results.
  (** The objects stored and their pickled form. *)
  Variable R : Type.
  Variable pickle : R -> string.
  Variable unpickle : string -> option R.

  (** serializer.py:27-29. *)
  Definition load_path (s : fs) (p : path) : fres R :=
    match read s p with
    | Good b => match unpickle b with Some r => Good r | None => Bad BadPickle end
    | Bad e => Bad e
    end.

  (** serializer.py:57-59 [Serializer.load] *)
  Definition load (s : fs) (dir : path) (name : string) : fres R :=
    load_path s (result_path dir name).

  (** serializer.py:46-52, undisturbed. *)
  Definition store (s : fs) (dir : path) (name : string) (r : R) : fs :=
    apply_all s (store_ops s dir name (pickle r)).

  (** A result with its metadata (serializer.py:16-24): the stem of the file name, the number of
      the run and the contents. *)
  Record item : Type := { i_name : string; i_run : nat; i_result : R }.

  (** serialization.py:65-78, the loop over the sorted listing of one run. *)
  Fixpoint collect (s : fs) (dir : path) (run : nat) (names : list string) : fres (list item) :=
    match names with
    | [] => Good []
    | n :: rest =>
        match numbered n with
        | None => collect s dir run rest
        | Some (st, k) =>
            match load s dir (str_of_N k) with
            | Good r =>
                match collect s dir run rest with
                | Good l => Good ({| i_name := st; i_run := run; i_result := r |} :: l)
                | Bad e => Bad e
                end
            | Bad FileNotFound => Good []
            | Bad IsADirectory => collect s dir run rest
            | Bad e => Bad e
            end
        end
    end.

  (** serialization.py:62-79 [load_number_measured_results] *)
  Definition measured (s : fs) (dir : path) (run : nat) : fres (list item) :=
    match lookup s dir with
    | None => Good []
    | Some (File _) => Bad NotADirectory
    | Some Dir => collect s dir run (sort_by str_leb (children s dir))
    end.

  (** serialization.py:53-56: all runs, numbered in order. *)
  Fixpoint all_measured (s : fs) (base : path) (run : nat) (ids : list string)
    : fres (list item) :=
    match ids with
    | [] => Good []
    | id :: rest =>
        match measured s (base ++ [id])%list run with
        | Bad e => Bad e
        | Good l =>
            match all_measured s base (S run) rest with
            | Bad e => Bad e
            | Good l' => Good (l ++ l')%list
            end
        end
    end.

  (** [by_number[int(runbudget.name)].append(runbudget)] on a [defaultdict(list)].
      serialization.py:52-60. *)
  Fixpoint group_add (k : N) (x : item) (d : list (N * list item)) : list (N * list item) :=
    match d with
    | [] => [(k, [x])]
    | (k', l) :: d' =>
        if (k' =? k)%N then (k', l ++ [x])%list :: d' else (k', l) :: group_add k x d'
    end.

  (** serialization.py:52-60: int(runbudget.name). *)
  Definition item_number (x : item) : N :=
    match int_of_str (i_name x) with Some k => k | None => 0%N end.

  (** serialization.py:52-60: by_number. *)
  Definition group (l : list item) : list (N * list item) :=
    fold_left (fun d x => group_add (item_number x) x d) l [].

  (** serialization.py:52-60: the order of sorted(by_number). *)
  Definition entry_leb (a b : N * list item) : bool := (fst a <=? fst b)%N.

  (** serialization.py:15-17 and 52-60: [load(algo, problem, results_path)]. *)
  Definition extract (s : fs) (results_dir problem algo : string)
    : fres (list (N * list item)) :=
    let base := [results_dir; problem; algo] in
    match lookup s base with
    | Some Dir =>
        match all_measured s base 0 (each_run (children s base)) with
        | Good l => Good (sort_by entry_leb (group l))
        | Bad e => Bad e
        end
    | Some (File _) => Bad NotADirectory
    | None => Bad FileNotFound
    end.
End Results.

Section Metrics.
  (** Metric values, parameters (compared with [==]) and the functions of metrics/metrics.py,
      applied to the fitnesses held by a result; [None] is an exception. *)
  Variables V P F : Type.
  Variable eqP : P -> P -> bool.
  Variable metric : string -> F -> P -> option V.
  Variable pickle_m : V * P -> string.
  Variable unpickle_m : string -> option (V * P).

  (** metrics_processor.py:80: the cache file of a metric of the result [name] in [dir]. *)
  Definition metric_path (dir : path) (name m : string) : path :=
    result_path dir (name ++ "." ++ m).

  (** metrics_processor.py:70-123 [get_metric]: the answer, the file system and whether the
      metric was computed.  If the cache file cannot be opened for writing the value is lost
      and the exception is raised. *)
  Definition get_metric (s : fs) (dir : path) (name m : string) (f : F) (ps : P)
    : fs * fres V * bool :=
    match read s (metric_path dir name m) with
    | Good b =>
        match unpickle_m b with
        | None => (s, Bad BadPickle, false)
        | Some (v, ps') => (s, if eqP ps' ps then Good v else Bad ParamsChanged, false)
        end
    | Bad FileNotFound =>
        match metric m f ps with
        | None => (s, Bad MetricError, true)
        | Some v =>
            match lookup s dir with
            | Some Dir =>
                (apply_all s (write_ops (metric_path dir name m) (pickle_m (v, ps))),
                 Good v, true)
            | _ => (s, Bad FileNotFound, true)
            end
        end
    | Bad e => (s, Bad e, false)
    end.
End Metrics.
