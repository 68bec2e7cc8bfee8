(** Specification for C151: how a command line is written, and what is on it. *)
Require Import String Ascii List.
From Verif Require Import CliModel.
Import ListNotations.
Open Scope string_scope.

(** One or two words for a plain word, a flag, or an option with its value. *)
Inductive spelled : list string -> atom -> Prop :=
| spelled_word : forall w, String.prefix "-" w = false -> spelled [w] (AWord w)
| spelled_flag : forall f, In f ["--timeout"; "-t"; "--step"; "-s"] -> spelled [f] (AOption f (VBool true))
| spelled_long : forall n v, In n ["--algo"; "--problem"; "--bootstrap"; "--renice"; "--dir"; "--selected"] ->
    spelled [n; v] (AOption n (VStr v))
| spelled_long_eq : forall n v, In n ["--algo"; "--problem"; "--bootstrap"; "--renice"; "--dir"; "--selected"] ->
    spelled [n ++ "=" ++ v] (AOption n (VStr v))
| spelled_short : forall s n v,
    In (s, n) [("-a", "--algo"); ("-p", "--problem"); ("-b", "--bootstrap"); ("-j", "-j"); ("-N", "-N"); ("-d", "--dir"); ("-o", "-o")] ->
    spelled [s; v] (AOption n (VStr v))
| spelled_short_glued : forall s n v, v <> "" ->
    In (s, n) [("-a", "--algo"); ("-p", "--problem"); ("-b", "--bootstrap"); ("-j", "-j"); ("-N", "-N"); ("-d", "--dir"); ("-o", "-o")] ->
    spelled [s ++ v] (AOption n (VStr v)).

(** The plain words, in order, and the flags and options, in order. *)
Definition plain_words (l : list atom) : list string := flat_map (fun a => match a with AWord w => [w] | AOption _ _ => [] end) l.
Definition given (l : list atom) : list (string * value) := flat_map (fun a => match a with AOption n v => [(n, v)] | AWord _ => [] end) l.

(** The value an option has: the one given, or the default of the help text, or for the two directories the program's. *)
Definition effective (results_dir plots_dir : string) (os : list (string * value)) (n : string) : value :=
  match find (fun x => String.eqb (fst x) n) os with
  | Some (_, v) => v
  | None =>
      if String.eqb n "--dir" then VStr results_dir
      else if String.eqb n "-o" then VStr plots_dir
      else if String.eqb n "--bootstrap" then VStr "10000"
      else if String.eqb n "-j" then VStr "4"
      else if String.eqb n "-N" then VStr "1"
      else if String.eqb n "--selected"
           then VStr "HGS+SPEA2,HGS+NSGAII,HGS+NSGAIII,HGS+IBEA,HGS+OMOPSO,HGS+SMSEMOA,HGS+JGBL,HGS+NSLS"
      else VNone
  end.
(** The options that take a value. *)
Definition valued : list string :=
  ["--algo"; "--problem"; "--bootstrap"; "-j"; "-N"; "--renice"; "--dir"; "-o"; "--selected"].
