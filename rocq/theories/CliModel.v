(** The command line: evogil.py:1-147 with docopt 0.6.2 (requirements.txt:2), which reads its grammar from the
    docstring, and simulation/factory.py:23-41. *)
Require Import String Ascii List Arith Bool.
Import ListNotations.
Open Scope string_scope.

(** evogil.py:39-78: an option: short name, long name, whether it takes a value. *)
Record optspec : Type := { o_short : option string; o_long : option string; o_arg : bool }.

(** evogil.py:39-78: docopt's name of an option: the long one if there is one. *)
Definition o_name (o : optspec) : string :=
  match o_long o, o_short o with Some n, _ => n | None, Some n => n | None, None => "" end.

(** evogil.py:39-78: the options of the two option sections, then the flags that occur in the usage lines only. *)
Definition doc_options : list optspec :=
  [ {| o_short := Some "-a"; o_long := Some "--algo"; o_arg := true |};
    {| o_short := Some "-p"; o_long := Some "--problem"; o_arg := true |};
    {| o_short := Some "-b"; o_long := Some "--bootstrap"; o_arg := true |};
    {| o_short := Some "-j"; o_long := None; o_arg := true |};
    {| o_short := Some "-N"; o_long := None; o_arg := true |};
    {| o_short := None; o_long := Some "--renice"; o_arg := true |};
    {| o_short := Some "-d"; o_long := Some "--dir"; o_arg := true |};
    {| o_short := Some "-o"; o_long := None; o_arg := true |};
    {| o_short := None; o_long := Some "--selected"; o_arg := true |} ].

(** evogil.py:5, 8 *)
Definition usage_flags : list optspec :=
  [ {| o_short := Some "-h"; o_long := None; o_arg := false |};
    {| o_short := None; o_long := Some "--help"; o_arg := false |};
    {| o_short := None; o_long := Some "--timeout"; o_arg := false |};
    {| o_short := Some "-t"; o_long := None; o_arg := false |};
    {| o_short := None; o_long := Some "--step"; o_arg := false |};
    {| o_short := Some "-s"; o_long := None; o_arg := false |} ].

(** evogil.py:111: values in the dictionary of arguments. *)
Inductive value : Type := VNone | VBool (b : bool) | VStr (s : string).

(** evogil.py:129, 138-141: Python's truth value. *)
Definition truthy (v : value) : bool :=
  match v with VNone => false | VBool b => b | VStr s => negb (String.eqb s "") end.

(** evogil.py:111: the words of the command line after docopt's parse_argv: an option with its value, or any other word. *)
Inductive atom : Type := AOption (name : string) (v : value) | AWord (w : string).

(** evogil.py:111 docopt parse_long: [word.partition('=')]. *)
Fixpoint partition_eq (s : string) : string * option string :=
  match s with
  | EmptyString => ("", None)
  | String c rest =>
      if Ascii.eqb c "=" then ("", Some rest)
      else let (a, b) := partition_eq rest in (String c a, b)
  end.

(** evogil.py:111 docopt parse_long: the options known now, what is parsed, and the option that takes the next word;
    None: the line is rejected.  A long name may be cut off if only one option begins with it. *)
Definition parse_long (options : list optspec) (word : string) : option (list optspec * list atom * option string) :=
  let (long, v) := partition_eq word in
  let exact := filter (fun o => match o_long o with Some n => String.eqb n long | None => false end) options in
  let similar :=
    match exact with
    | [] => filter (fun o => match o_long o with Some n => String.prefix long n | None => false end) options
    | _ => exact
    end in
  match similar, v with
  | [], None =>
      Some ((options ++ [{| o_short := None; o_long := Some long; o_arg := false |}])%list, [AOption long (VBool true)], None)
  | [], Some v =>
      Some ((options ++ [{| o_short := None; o_long := Some long; o_arg := true |}])%list, [AOption long (VStr v)], None)
  | [o], None => if o_arg o then Some (options, [], Some (o_name o)) else Some (options, [AOption (o_name o) (VBool true)], None)
  | [o], Some v => if o_arg o then Some (options, [AOption (o_name o) (VStr v)], None) else None
  | _, _ => None
  end.

(** evogil.py:111 docopt parse_shorts: the letters after the dash. *)
Fixpoint parse_shorts (options : list optspec) (letters : string) : option (list optspec * list atom * option string) :=
  match letters with
  | EmptyString => Some (options, [], None)
  | String c rest =>
      let short := String "-" (String c "") in
      match filter (fun o => match o_short o with Some n => String.eqb n short | None => false end) options with
      | [] =>
          match parse_shorts (options ++ [{| o_short := Some short; o_long := None; o_arg := false |}])%list rest with
          | Some (opts, atoms, next) => Some (opts, AOption short (VBool true) :: atoms, next)
          | None => None
          end
      | [o] =>
          if o_arg o then
            match rest with
            | EmptyString => Some (options, [], Some (o_name o))
            | _ => Some (options, [AOption (o_name o) (VStr rest)], None)
            end
          else
            match parse_shorts options rest with
            | Some (opts, atoms, next) => Some (opts, AOption (o_name o) (VBool true) :: atoms, next)
            | None => None
            end
      | _ => None
      end
  end.

(** evogil.py:111 docopt parse_argv; [next] is an option still without its value. *)
Fixpoint parse_argv (options : list optspec) (next : option string) (argv : list string) : option (list atom) :=
  match argv, next with
  | [], None => Some []
  | [], Some _ => None
  | w :: rest, Some n => option_map (cons (AOption n (VStr w))) (parse_argv options None rest)
  | w :: rest, None =>
      if String.eqb w "--" then Some (map AWord (w :: rest))
      else if String.prefix "--" w then
        match parse_long options w with
        | Some (opts, atoms, next') => option_map (app atoms) (parse_argv opts next' rest)
        | None => None
        end
      else
        match w with
        | String "-" (String c letters) =>
            match parse_shorts options (String c letters) with
            | Some (opts, atoms, next') => option_map (app atoms) (parse_argv opts next' rest)
            | None => None
            end
        | _ => option_map (cons (AWord w)) (parse_argv options None rest)
        end
  end.

(** evogil.py:4-17: usage patterns. *)
Inductive pat : Type :=
| POption (name : string) | PCommand (name : string) | PArgument (name : string)
| PRequired (l : list pat) | POptional (l : list pat) | PEither (l : list pat).

(** evogil.py:111 docopt Option.single_match: the first option of that name. *)
Fixpoint take_option (n : string) (left : list atom) : option (value * list atom) :=
  match left with
  | [] => None
  | AOption m v :: rest =>
      if String.eqb m n then Some (v, rest)
      else option_map (fun vr => (fst vr, AOption m v :: snd vr)) (take_option n rest)
  | AWord w :: rest => option_map (fun vr => (fst vr, AWord w :: snd vr)) (take_option n rest)
  end.

(** evogil.py:111 docopt Argument.single_match: the first word that is not an option. *)
Fixpoint take_word (left : list atom) : option (string * list atom) :=
  match left with
  | [] => None
  | AWord w :: rest => Some (w, rest)
  | AOption m v :: rest => option_map (fun wr => (fst wr, AOption m v :: snd wr)) (take_word rest)
  end.

(** evogil.py:111: whether it matches, what is left, what is collected. *)
Definition outcome : Type := bool * list atom * list (string * value).

(** evogil.py:111 docopt Either.match: of the matching alternatives the first that leaves fewest. *)
Definition better (best : option outcome) (o : outcome) : option outcome :=
  match o, best with
  | (false, _, _), _ => best
  | (true, l, _), None => Some o
  | (true, l, _), Some (_, lb, _) => if Nat.ltb (List.length l) (List.length lb) then Some o else best
  end.

(** evogil.py:111 docopt Pattern.match *)
Fixpoint matches (p : pat) (left : list atom) (collected : list (string * value)) : outcome :=
  match p with
  | POption n =>
      match take_option n left with
      | Some (v, rest) => (true, rest, (collected ++ [(n, v)])%list)
      | None => (false, left, collected)
      end
  | PCommand n =>
      match take_word left with
      | Some (w, rest) => if String.eqb w n then (true, rest, (collected ++ [(n, VBool true)])%list) else (false, left, collected)
      | None => (false, left, collected)
      end
  | PArgument n =>
      match take_word left with
      | Some (w, rest) => (true, rest, (collected ++ [(n, VStr w)])%list)
      | None => (false, left, collected)
      end
  | PRequired l =>
      (fix all (l : list pat) (lf : list atom) (c : list (string * value)) : outcome :=
         match l with
         | [] => (true, lf, c)
         | p :: l' => match matches p lf c with
                      | (true, lf', c') => all l' lf' c'
                      | (false, _, _) => (false, left, collected)
                      end
         end) l left collected
  | POptional l =>
      (fix any (l : list pat) (lf : list atom) (c : list (string * value)) : outcome :=
         match l with
         | [] => (true, lf, c)
         | p :: l' => match matches p lf c with (_, lf', c') => any l' lf' c' end
         end) l left collected
  | PEither l =>
      match (fix each (l : list pat) (best : option outcome) : option outcome :=
               match l with
               | [] => best
               | p :: l' => each l' (better best (matches p left collected))
               end) l None with
      | Some o => o
      | None => (false, left, collected)
      end
  end.

(** evogil.py:39-78: what [[options]] in a usage line stands for. *)
Definition options_shortcut : pat := POptional [POptional (map (fun o => POption (o_name o)) doc_options)].

(** evogil.py:4-17 *)
Definition usage_lines : list pat :=
  [ PRequired [PEither [POption "-h"; POption "--help"]];
    PRequired [PCommand "list"];
    PRequired [PCommand "run"; PCommand "budget"; PArgument "<budget>"; options_shortcut];
    PRequired [PCommand "run"; PCommand "time";
               POptional [PRequired [PEither [POption "--timeout"; POption "-t"]; PArgument "<timeout>"]];
               POptional [PRequired [PEither [POption "--step"; POption "-s"]; PArgument "<step>"]]; options_shortcut];
    PRequired [PRequired [PEither [PCommand "stats"; PCommand "statistics"]]; options_shortcut];
    PRequired [PCommand "rank"];
    PRequired [PCommand "rank_details"];
    PRequired [PCommand "table"];
    PRequired [PCommand "summary"];
    PRequired [PCommand "pictures"; options_shortcut];
    PRequired [PCommand "pictures_summary"; options_shortcut];
    PRequired [PCommand "best_fronts"; options_shortcut];
    PRequired [PCommand "violin"; options_shortcut] ].

(** evogil.py:4-78: the dictionary before anything is matched; options not listed and arguments are None. *)
Definition defaults : list (string * value) :=
  (map (fun c => (c, VBool false))
     ["-h"; "--help"; "list"; "run"; "budget"; "time"; "--timeout"; "-t"; "--step"; "-s"; "stats"; "statistics"; "rank";
      "rank_details"; "table"; "summary"; "pictures"; "pictures_summary"; "best_fronts"; "violin"] ++
   map (fun c => (c, VNone)) ["<budget>"; "<timeout>"; "<step>"; "--algo"; "--problem"; "--renice"; "--dir"; "-o"] ++
   [("--bootstrap", VStr "10000"); ("-j", VStr "4"); ("-N", VStr "1");
    ("--selected", VStr "HGS+SPEA2,HGS+NSGAII,HGS+NSGAIII,HGS+IBEA,HGS+OMOPSO,HGS+SMSEMOA,HGS+JGBL,HGS+NSLS")])%list.

(** evogil.py:129 [argv[k]]: of several entries the last counts. *)
Fixpoint arg (d : list (string * value)) (k : string) : value :=
  match d with
  | [] => VNone
  | (n, v) :: d' => if existsb (fun e => String.eqb (fst e) k) d' then arg d' k else if String.eqb n k then v else VNone
  end.

(** evogil.py:111: docopt prints the usage and exits, prints the help or the version and exits, or gives a dictionary. *)
Inductive parsed : Type := UsageExit | HelpExit | VersionExit | Args (d : list (string * value)).

(** evogil.py:111 *)
Definition has_option (names : list string) (atoms : list atom) : bool :=
  existsb (fun a => match a with AOption n v => existsb (String.eqb n) names && truthy v | AWord _ => false end) atoms.

(** evogil.py:111 [docopt(__doc__, version="EvoGIL 3.0")] *)
Definition docopt (argv : list string) : parsed :=
  match parse_argv (doc_options ++ usage_flags) None argv with
  | None => UsageExit
  | Some atoms =>
      if has_option ["-h"; "--help"] atoms then HelpExit
      else if has_option ["--version"] atoms then VersionExit
      else match matches (PRequired [PEither usage_lines]) atoms [] with
           | (true, [], collected) => Args (defaults ++ collected)
           | _ => UsageExit
           end
  end.

(** evogil.py:114-127: the keys of run_dict. *)
Definition run_dict : list string :=
  ["run"; "statistics"; "stats"; "rank"; "table"; "rank_details"; "pictures"; "pictures_summary"; "best_fronts";
   "violin"; "summary"; "list"].

(** evogil.py:137-141; the two directories are the defaults of serialization and pictures. *)
Definition set_default_options (results_dir plots_dir : string) (d : list (string * value)) : list (string * value) :=
  let d1 := if truthy (arg d "--dir") then d else (d ++ [("--dir", VStr results_dir)])%list in
  if truthy (arg d1 "-o") then d1 else (d1 ++ [("-o", VStr plots_dir)])%list.

(** evogil.py:107-134: what is done: an exit in docopt, or the function of a command with the arguments. *)
Inductive invocation : Type := Exits (p : parsed) | Runs (command : option string) (d : list (string * value)).

(** evogil.py:107-134 [main_worker] *)
Definition main_worker (results_dir plots_dir : string) (argv : list string) : invocation :=
  match docopt argv with
  | Args d =>
      let d' := set_default_options results_dir plots_dir d in
      Runs (find (fun k => truthy (arg d' k)) run_dict) d'
  | p => Exits p
  end.

(** simulation/factory.py:23-41: what a run is to be: the text of the budgets, or of timeout and step; None: int(None)
    or None.split raises, or there is no such factory. *)
Inductive limits : Type := Budgets (s : string) | Times (timeout step : string).

(** simulation/factory.py:23-41, 103 *)
Definition resolve_limits (d : list (string * value)) : option limits :=
  if truthy (arg d "budget") then match arg d "<budget>" with VStr s => Some (Budgets s) | _ => None end
  else if truthy (arg d "time") then
    match arg d "<timeout>", arg d "<step>" with VStr t, VStr s => Some (Times t s) | _, _ => None end
  else None.
