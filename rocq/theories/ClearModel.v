(** clear_old_pdi_metrics with paths and patterns: simulation/metrics_processor.py:255-270, on a POSIX system. *)
Require Import String Ascii List Arith Bool.
Import ListNotations.
Open Scope string_scope.

(** metrics_processor.py:258-270: what lies under a path: a file, or a directory with named entries in the order in which
    the operating system lists them.  No links. *)
Inductive node : Type := NFile (bytes : string) | NDir (entries : list (string * node)).

(** metrics_processor.py:262, 270: the entry with a name. *)
Fixpoint entry (x : string) (l : list (string * node)) : option node :=
  match l with
  | [] => None
  | (y, n) :: l' => if String.eqb x y then Some n else entry x l'
  end.

(** metrics_processor.py:262, 270: what lies under a relative path. *)
Fixpoint at_path (n : node) (path : list string) : option node :=
  match path with
  | [] => Some n
  | x :: rest =>
      match n with
      | NDir l => match entry x l with Some m => at_path m rest | None => None end
      | NFile _ => None
      end
  end.

(** metrics_processor.py:262, 270 [os.remove]: None when it raises (no such file, or a directory). *)
Fixpoint os_remove (path : list string) (n : node) : option node :=
  match path, n with
  | x :: rest, NDir l =>
      match entry x l, rest with
      | Some (NFile _), [] => Some (NDir (filter (fun e => negb (String.eqb x (fst e))) l))
      | Some m, _ :: _ =>
          match os_remove rest m with
          | Some m' => Some (NDir (map (fun e => if String.eqb x (fst e) then (fst e, m') else e) l))
          | None => None
          end
      | _, _ => None
      end
  | _, _ => None
  end.

(** metrics_processor.py:258-260, 265-267: fnmatch.translate.  Bracket expressions are not modelled: "[" stands for
    itself, as it does in fnmatch when no "]" follows. *)
Inductive wild : Type := Star | AnyChar | Lit (c : ascii).

(** metrics_processor.py:258-260, 265-267 *)
Fixpoint translate (pattern : string) : list wild :=
  match pattern with
  | EmptyString => []
  | String c rest =>
      (if Ascii.eqb c "*" then Star else if Ascii.eqb c "?" then AnyChar else Lit c) :: translate rest
  end.

(** metrics_processor.py:258-260, 265-267: matching the whole name. *)
Fixpoint glob (p : list wild) : string -> bool :=
  match p with
  | [] => fun s => match s with EmptyString => true | _ => false end
  | Star :: p' =>
      fix star (s : string) : bool :=
        glob p' s || match s with EmptyString => false | String _ s' => star s' end
  | AnyChar :: p' => fun s => match s with EmptyString => false | String _ s' => glob p' s' end
  | Lit c :: p' => fun s => match s with EmptyString => false | String d s' => Ascii.eqb c d && glob p' s' end
  end.

(** metrics_processor.py:259 [str(p)] for an entry [x] of the directory whose path has the components [base]. *)
Fixpoint path_str (base : list string) (x : string) : string :=
  match base with
  | [] => x
  | d :: base' => d ++ "/" ++ path_str base' x
  end.

(** metrics_processor.py:258-260: the entries of the problem's directory that are to be removed; the last of [dirs] is
    the name of the problem. *)
Definition first_matches (dirs : list string) (n : node) : list string :=
  match n with
  | NDir l =>
      filter (fun x => glob (translate ("*" ++ last dirs "" ++ "_*")) (path_str dirs x)) (map fst l)
  | NFile _ => []
  end.

(** metrics_processor.py:264 [os.walk]: for each directory, from the top, its path below the problem's directory and
    the names of its files.  The listings are all made at the start; removing files does not change the rest of them. *)
Fixpoint os_walk (n : node) : list (list string * list string) :=
  match n with
  | NFile _ => []
  | NDir l =>
      ([], flat_map (fun e => match snd e with NFile _ => [fst e] | NDir _ => [] end) l)
      :: flat_map (fun e => map (fun rf => (fst e :: fst rf, snd rf)) (os_walk (snd e))) l
  end.

(** metrics_processor.py:264-268: the paths of the files to be removed in the second loop. *)
Definition second_matches (n : node) : list (list string) :=
  flat_map (fun rf => map (fun f => (fst rf ++ [f])%list)
                          (filter (glob (translate "*.pareto_dominance_indicator.pickle")) (snd rf))) (os_walk n).

(** metrics_processor.py:258-262, 264-270: the files one after the other; on an exception the rest stays. *)
Fixpoint remove_each (paths : list (list string)) (n : node) : node * bool :=
  match paths with
  | [] => (n, true)
  | p :: rest => match os_remove p n with Some n' => remove_each rest n' | None => (n, false) end
  end.

(** metrics_processor.py:255-270 [clear_old_pdi_metrics]: what is left, and whether it ends without an exception. *)
Definition clear_old_pdi_metrics (dirs : list string) (n : node) : node * bool :=
  let (n1, ok) := remove_each (map (fun x => [x]) (first_matches dirs n)) n in
  if ok then remove_each (second_matches n1) n1 else (n1, false).
