(** Simulation ids: simulation/model.py:6-10, and their recognition by the extractor,
    simulation/serialization.py:22-45. *)
Require Import String Ascii List Arith NArith Bool.
From Verif Require Import PyStr.
Import ListNotations.
Open Scope string_scope.

(** A number written with exactly [k] decimal digits (the last [k] digits of [n]), as
    [strftime] writes its fields. model.py:7. *)
Fixpoint fixed (k : nat) (n : N) : string :=
  match k with
  | O => EmptyString
  | S k' => fixed k' (n / 10) ++ String (digit (n mod 10)) EmptyString
  end.

(** A point in time, [datetime.today()]. model.py:6-7. *)
Record date : Type := {
  d_year : N; d_month : N; d_day : N; d_hour : N; d_minute : N; d_second : N; d_micro : N
}.

(** [strftime("%Y-%m-%d.%H%M%S.%f")] (model.py:7).  A year below 1000 would be written with
    fewer digits on some platforms; the clock does not give one. *)
Definition strftime (d : date) : string :=
  fixed 4 (d_year d) ++ "-" ++ fixed 2 (d_month d) ++ "-" ++ fixed 2 (d_day d) ++ "." ++
  fixed 2 (d_hour d) ++ fixed 2 (d_minute d) ++ fixed 2 (d_second d) ++ "." ++
  fixed 6 (d_micro d).

(** model.py:10 *)
Definition id_of (run_date run_id : string) : string := run_date ++ "__" ++ pad7 run_id.

(** model.py:6-10 [get_simulation_id(run_id)] at time [d]; [rnd] is the number drawn by
    [random.randint(1000000, 9999999)] when [run_id] is 0. *)
Definition get_simulation_id (run : N) (rnd : N) (d : date) : string :=
  id_of (strftime d) (str_of_N (if (run =? 0)%N then rnd else run)).

(** The regular expression of serialization.py:28 as a list of character classes: [true] is a
    digit, otherwise the character itself. *)
Inductive cls : Type := D | C (x : ascii).

(** serialization.py:27-30: one character against its class. *)
Definition cls_match (c : cls) (x : ascii) : bool :=
  match c with D => is_digit x | C y => Ascii.eqb x y end.

(** serialization.py:27-30: re.fullmatch. *)
Fixpoint fullmatch (p : list cls) (s : string) : bool :=
  match p, s with
  | [], EmptyString => true
  | c :: p', String x s' => cls_match c x && fullmatch p' s'
  | _, _ => false
  end.

(** serialization.py:28: the group rundate. *)
Definition rundate_re : list cls :=
  [D; D; D; D; C "-"; D; D; C "-"; D; D; C "."; D; D; D; D; D; D; C "."; D; D; D; D; D; D]%char.

(** serialization.py:28. *)
Definition run_re : list cls := (rundate_re ++ [C "_"; C "_"; D; D; D; D; D; D; D]%char)%list.

(** The groups [rundate] and [runid] of a match; every part has a fixed width.
    serialization.py:27-45. *)
Definition parse_id (name : string) : option (string * string) :=
  if fullmatch run_re name then Some (substring 0 24 name, substring 26 7 name) else None.

(** serialization.py:22-45 [_each_run] on the names in the directory of one problem and
    algorithm: the ids of the runs in order, numbered from 0 by their position.  [run_id] is
    a non-empty string here, so [get_simulation_id] pads it. *)
Definition each_run (names : list string) : list string :=
  flat_map (fun name =>
    match parse_id name with
    | Some (run_date, run_id) => [id_of run_date run_id]
    | None => []
    end) (sort_by str_leb names).

(** serializer.py:38-44 [Serializer.__init__]: the directory of a run, as its components. *)
Definition run_path (results_dir problem algo id : string) : list string :=
  [results_dir; problem; algo; id].
