(** C151: the command line. *)
Require Import String Ascii List Arith Bool.
From Verif Require Import Base CliModel CliSpec CliProofs CliEnd CliLines.
Import ListNotations.
Open Scope string_scope.

(** C151 - whatever the words of the command line: if it is accepted, the function of exactly one command runs, and this
    command is one of the words. *)
Theorem C151_one_command : forall results_dir plots_dir argv c d,
  main_worker results_dir plots_dir argv = Runs c d ->
  exists k, c = Some k /\ In k run_dict /\ In k argv /\
    forall k', In k' run_dict -> (truthy (arg d k') = true <-> k' = k).
Proof. exact one_command. Qed.
Print Assumptions C151_one_command.

(** The commands with options: options in any order and spelling, before or after the command, each at most once, reach
    the command; the others have their defaults. *)
Theorem C151_options : forall results_dir plots_dir wss atoms k,
  Forall2 spelled wss atoms -> plain_words atoms = [k] ->
  In k ["stats"; "statistics"; "pictures"; "pictures_summary"; "best_fronts"; "violin"] ->
  NoDup (map fst (given atoms)) -> (forall n, In n (map fst (given atoms)) -> In n valued) ->
  (forall n, In (n, VStr "") (given atoms) -> n <> "--dir" /\ n <> "-o") ->
  exists d, main_worker results_dir plots_dir (concat wss) = Runs (Some k) d /\
    forall n, In n valued -> arg d n = effective results_dir plots_dir (given atoms) n.
Proof. intros rd pd wss atoms k S W K N V E. exact (simple_line wss atoms rd pd S N E k K W V). Qed.
Print Assumptions C151_options.

(** [run budget]: the same, and the simulation gets the budgets. *)
Theorem C151_budget : forall results_dir plots_dir wss atoms b,
  Forall2 spelled wss atoms -> plain_words atoms = ["run"; "budget"; b] ->
  NoDup (map fst (given atoms)) -> (forall n, In n (map fst (given atoms)) -> In n valued) ->
  (forall n, In (n, VStr "") (given atoms) -> n <> "--dir" /\ n <> "-o") ->
  exists d, main_worker results_dir plots_dir (concat wss) = Runs (Some "run") d /\
    resolve_limits d = Some (Budgets b) /\
    forall n, In n valued -> arg d n = effective results_dir plots_dir (given atoms) n.
Proof. intros rd pd wss atoms b S W N V E. exact (budget_line wss atoms rd pd S N E b W V). Qed.
Print Assumptions C151_budget.

(** [run time] with both flags: the first number on the line becomes the timeout, the second the step, so it is right when
    the timeout is written first. *)
Theorem C151_time_partial : forall results_dir plots_dir wss atoms timeout step timeout_flag step_flag,
  Forall2 spelled wss atoms -> plain_words atoms = ["run"; "time"; timeout; step] ->
  timeout_flag = "--timeout" \/ timeout_flag = "-t" -> step_flag = "--step" \/ step_flag = "-s" ->
  (forall f, In f ["--timeout"; "-t"; "--step"; "-s"] -> (In f (map fst (given atoms)) <-> f = timeout_flag \/ f = step_flag)) ->
  NoDup (map fst (given atoms)) ->
  (forall n, In (n, VStr "") (given atoms) -> n <> "--dir" /\ n <> "-o") ->
  exists d, main_worker results_dir plots_dir (concat wss) = Runs (Some "run") d /\
    resolve_limits d = Some (Times timeout step) /\
    forall n, In n valued -> arg d n = effective results_dir plots_dir (given atoms) n.
Proof.
  intros rd pd wss atoms T S tf sf Sp W Ht Hs D N E. exact (time_line wss atoms rd pd Sp N E T S tf sf W Ht Hs D).
Qed.
Print Assumptions C151_time_partial.

(** Written in the other order they are exchanged: a step of 2 and a timeout of 60 give a timeout of 2 and a step of 60. *)
Theorem C151_order_refuted : exists d,
  main_worker "results" "plots" ["run"; "time"; "--step"; "2"; "--timeout"; "60"] = Runs (Some "run") d /\
  resolve_limits d = Some (Times "2" "60").
Proof. eexists. split; vm_compute; reflexivity. Qed.
Print Assumptions C151_order_refuted.

(** The usage says that both are optional; a line without one of them is accepted, and then int(None) raises. *)
Theorem C151_optional_refuted : exists d,
  main_worker "results" "plots" ["run"; "time"; "--timeout"; "60"] = Runs (Some "run") d /\ resolve_limits d = None.
Proof. eexists. split; vm_compute; reflexivity. Qed.
Print Assumptions C151_optional_refuted.

(** The summary and the rankings cannot be told the results directory. *)
Theorem C151_directory_refuted :
  map (fun k => main_worker "results" "plots" [k; "--dir"; "other"]) ["summary"; "rank"; "rank_details"; "table"] =
  repeat (Exits UsageExit) 4.
Proof. vm_compute. reflexivity. Qed.
Print Assumptions C151_directory_refuted.

(** A line for C151_time_partial with options in between. *)
Example C151_example :
  Forall2 spelled [["-aHGS+SPEA2,IBEA"]; ["run"]; ["--dir=out"]; ["time"]; ["-t"]; ["60"]; ["-N"; "3"]; ["-s"]; ["2"]]
    [AOption "--algo" (VStr "HGS+SPEA2,IBEA"); AWord "run"; AOption "--dir" (VStr "out"); AWord "time";
     AOption "-t" (VBool true); AWord "60"; AOption "-N" (VStr "3"); AOption "-s" (VBool true); AWord "2"] /\
  exists d, main_worker "results" "plots" ["-aHGS+SPEA2,IBEA"; "run"; "--dir=out"; "time"; "-t"; "60"; "-N"; "3"; "-s"; "2"]
              = Runs (Some "run") d /\
    map (arg d) ["--algo"; "--dir"; "-o"; "-N"; "-j"; "<timeout>"; "<step>"; "time"; "budget"] =
    [VStr "HGS+SPEA2,IBEA"; VStr "out"; VStr "plots"; VStr "3"; VStr "4"; VStr "60"; VStr "2"; VBool true; VBool false].
Proof.
  split.
  - repeat apply Forall2_cons; [..|constructor].
    + apply (spelled_short_glued "-a" "--algo" "HGS+SPEA2,IBEA"); [discriminate|cbn; auto].
    + now apply spelled_word.
    + apply (spelled_long_eq "--dir" "out"). cbn. auto 10.
    + now apply spelled_word.
    + apply spelled_flag. cbn. auto.
    + now apply spelled_word.
    + apply (spelled_short "-N" "-N" "3"). cbn. auto 10.
    + apply spelled_flag. cbn. auto.
    + now apply spelled_word.
  - eexists. split; vm_compute; reflexivity.
Qed.
