(** simulation/run_config.py, the message adapters and the constructor signatures that exist
    in the repository, and the list of jobs (simulation/factory.py:45-105). *)
Require Import String Ascii List Arith NArith ZArith QArith Bool.
From Verif Require Import PyStr ConfModel ConfSpec.
Import ListNotations.
Open Scope string_scope.

(** Option values: numbers, strings, tuples or lists; functions are opaque tags.
    run_config.py:40-141. *)
Inductive cval : Type :=
| VNum (q : Q)
| VStr (s : string)
| VSeq (l : list cval)
| VFun (tag : nat).

Notation num q := (Plain (VNum q)).
Notation nums l := (Plain (VSeq (map VNum l))).

(** run_config.py:3 *)
Definition drivers : list string :=
  ["SPEA2"; "IBEA"; "NSGAII"; "OMOPSO"; "NSGAIII"; "JGBL"; "SMSEMOA"; "NSLS"].

(** run_config.py:5 *)
Definition metaalgorithms : list string := ["IMGA"; "HGS"; "DHGS"].

(** run_config.py:7-9 *)
Definition algorithms : list string :=
  map (fun p => fst p ++ "+" ++ snd p) (list_prod metaalgorithms drivers) ++ drivers.

(** run_config.py:13-28 *)
Definition problems : list string :=
  ["ZDT1"; "ZDT2"; "ZDT3"; "ZDT4"; "ZDT6";
   "UF1"; "UF2"; "UF3"; "UF4"; "UF5"; "UF6"; "UF7"; "UF8"; "UF9"].

(** run_config.py:50-63 and 64-77: the HGS entries differ in [hgs_type] only *)
Definition hgs_base (hgs_type : string) : conf cval :=
  [ ("hgs_type", Plain (VStr hgs_type));
    ("fitness_errors", nums [0; 0; 0]);
    ("cost_modifiers", nums [1; 1; 1]);
    ("mutation_etas", nums [10; 12; 15]);
    ("crossover_etas", nums [15; 20; 25]);
    ("population_sizes", nums [64; 20; 10]);
    ("comparison_multipliers", nums [1; 8#100; 20#1000]);
    ("mantissa_bits", nums [4; 16; 64]);
    ("max_sprouts_no", num 16);
    ("sproutiveness", num 3);
    ("metaepoch_len", nums [5; 5; 5]);
    ("min_progress_ratio", nums [0; 1#100000; 1#10000]) ].

(** run_config.py:40-78 [algo_base] (all keys are plain names) *)
Definition algo_base_table : list (string * conf cval) :=
  [ ("IBEA", [("kappa", num (5#100)); ("mating_population_size", num (1#2))]);
    ("NSGAII", [("mating_population_size", num (1#2))]);
    ("JGBL", [("mating_population_size", num (1#2)); ("jumping_rate", num (6#10));
              ("jumping_percentage", num (1#2))]);
    ("IMGA", [("islands_number", num 3); ("migrants_number", num 5);
              ("epoch_length", num 5)]);
    ("NSLS", [("local_search_mu", num (1#2)); ("local_search_sigma", num (1#2))]);
    ("HGS", hgs_base "classic");
    ("DHGS", hgs_base "distributed") ].

(** run_config.py:40-78. *)
Definition algo_base (k : akey) : option (conf cval) :=
  match k with
  | KName a => get a algo_base_table
  | KSubs _ _ => None
  end.

(** run_config.py:80 *)
Definition cust_base (k : list string) : option (conf cval) := None.

(** [len(x)] of a sequence value; other values raise a TypeError, here [None].
    run_config.py:83-141. *)
Definition vlen (v : cval) : option nat :=
  match v with VSeq l => Some (List.length l) | _ => None end.

(** [1.0 / len(problem_mod.dims)]. run_config.py:83-141. *)
Definition rate_of (pm : problem_mod cval) : option Q :=
  match vlen (pm_dims pm) with
  | Some (S n) => Some (1 # Pos.of_succ_nat n)
  | _ => None
  end.

(** run_config.py:133-141 [standard_variance], as the dictionary it adds *)
Definition variance_dict (rate : Q) : conf cval :=
  [ ("mutation_eta", num 20); ("crossover_eta", num 30); ("mutation_rate", num rate);
    ("crossover_rate", num (9#10)) ].

(** [tuple(50.0 for _ in range(len(problem_mod.pareto_front[0])))].
    run_config.py:83-141. *)
Definition reference_of (pm : problem_mod cval) : option cval :=
  match pm_extra pm with
  | VSeq (p :: _) => option_map (fun n => VSeq (repeat (VNum 50) n)) (vlen p)
  | _ => None
  end.

(** run_config.py:83-130: the hooks, as functions to the dictionary they add; [None]
    stands for a ZeroDivisionError, IndexError or TypeError. *)
Definition hgs_hook (pm : problem_mod cval) : option (conf cval) :=
  match reference_of pm, rate_of pm with
  | Some r, Some q =>
      Some [ ("reference_point", Plain r); ("mutation_rates", nums [q; q; q]);
             ("crossover_rates", nums [9#10; 9#10; 9#10]) ]
  | _, _ => None
  end.

(** run_config.py:133-141. *)
Definition variance_hook (pm : problem_mod cval) : option (conf cval) :=
  option_map variance_dict (rate_of pm).

(** run_config.py:123-126. *)
Definition smsemoa_hook (pm : problem_mod cval) : option (conf cval) :=
  match rate_of pm, reference_of pm with
  | Some q, Some r => Some (variance_dict q ++ [("reference_point", Plain r)])%list
  | _, _ => None
  end.

(** run_config.py:83-130: the functions named init_alg___. *)
Definition hook_table : list (string * (problem_mod cval -> option (conf cval))) :=
  [ ("init_alg___HGS", hgs_hook); ("init_alg___DHGS", hgs_hook);
    ("init_alg___IBEA", variance_hook); ("init_alg___SPEA2", variance_hook);
    ("init_alg___NSGAII", variance_hook); ("init_alg___NSGAIII", variance_hook);
    ("init_alg___NSLS", variance_hook); ("init_alg___JGBL", variance_hook);
    ("init_alg___OMOPSO", variance_hook); ("init_alg___SMSEMOA", smsemoa_hook);
    ("init_alg___IMGA", variance_hook) ].

(** factory.py:244-251: calling the hook. *)
Definition run_hook (f : problem_mod cval -> option (conf cval)) (pm : problem_mod cval)
  (c : conf cval) : hook_result cval :=
  match f pm with
  | Some u => HDone (update c u)
  | None => HError "ZeroDivisionError, IndexError or TypeError"
  end.

(** Packages under algorithms/ with a class of the same name, and [custom_paths]
    (run_config.py:11). *)
Definition classes : list string :=
  ["SPEA2"; "IBEA"; "NSGAII"; "OMOPSO"; "NSGAIII"; "JGBL"; "SMSEMOA"; "NSLS"; "IMGA"; "HGS";
   "BOGO"; "DHGS"].

(** algorithms/*/message.py: the adapters each module defines or imports by that name
    (JGBL/message.py also imports the NSGAII adapters; they match no name asked for). *)
Definition adapters : list (string * list string) :=
  [ ("SPEA2", ["SPEA2IMGAMessageAdapter"; "SPEA2HGSMessageAdapter"; "SPEA2DHGSMessageAdapter"]);
    ("IBEA", ["IBEAIMGAMessageAdapter"; "IBEAHGSMessageAdapter"; "IBEADHGSMessageAdapter"]);
    ("NSGAII", ["NSGAIIIMGAMessageAdapter"; "NSGAIIHGSMessageAdapter";
                "NSGAIIDHGSMessageAdapter"]);
    ("OMOPSO", ["OMOPSOIMGAMessageAdapter"; "OMOPSOHGSMessageAdapter";
                "OMOPSODHGSMessageAdapter"]);
    ("NSGAIII", ["NSGAIIIIMGAMessageAdapter"; "NSGAIIIHGSMessageAdapter";
                 "NSGAIIIDHGSMessageAdapter"]);
    ("JGBL", ["JGBLIMGAMessageAdapter"; "JGBLHGSMessageAdapter"; "JGBLDHGSMessageAdapter"]);
    ("SMSEMOA", ["SMSEMOAIMGAMessageAdapter"; "SMSEMOAHGSMessageAdapter";
                 "SMSEMOADHGSMessageAdapter"]);
    ("NSLS", ["NSLSIMGAMessageAdapter"; "NSLSHGSMessageAdapter"; "NSLSDHGSMessageAdapter"]);
    ("IMGA", ["IMGAMessageAdapter"; "DefaultIMGAMessageAdapter"]) ].

(** factory.py:361-375: getattr(module, name). *)
Definition adapter_exists (m c : string) : bool :=
  match get m adapters with Some l => str_in c l | None => false end.

(** The world of the repository, for any contents of the problem modules and any random
    populations. simulation/run_config.py, factory.py:108-375. *)
Definition repo (mods : string -> problem_mod cval)
  (pops : list string -> problem_mod cval -> cval) : world cval :=
  {| w_algo_base := algo_base;
     w_cust_base := cust_base;
     w_hooks := fun name => option_map run_hook (get name hook_table);
     w_class := fun a => str_in a classes;
     w_problem := fun p => if str_in p problems then Some (mods p) else None;
     w_adapter := adapter_exists;
     w_population := pops |}.

(** * Constructor signatures *)

(** Parameters of [Driver.__init__] (base/driver.py:30) and [ComplexDriver.__init__]
    (base/driver.py:52). *)
Definition leaf_sig (req opt : list string) : signature :=
  {| required := req; optional := (opt ++ ["message_adapter_factory"])%list |}.

(** driver.py:51-54. *)
Definition complex_sig (req opt : list string) : signature :=
  {| required := ("driver_message_adapter_factory" :: req)%list;
     optional := (opt ++ ["message_adapter_factory"])%list |}.

(** the four arguments of the variation operators, e.g. NSGAII.py:29-45. *)
Definition variation : list string :=
  ["mutation_eta"; "mutation_rate"; "crossover_eta"; "crossover_rate"].

(** the first arguments of a driver, e.g. NSGAII.py:29-45. *)
Definition basics : list string := ["population"; "fitnesses"; "dims"].

(** the optional arguments of a driver, e.g. NSGAII.py:29-45. *)
Definition archived : list string := ["trim_function"; "fitness_archive"].

(** algorithms/HGS/HGS.py:16-39 *)
Definition hgs_sig : signature :=
  complex_sig
    (basics ++ ["fitness_errors"; "cost_modifiers"; "driver"; "mutation_etas";
                "crossover_etas"; "mutation_rates"; "crossover_rates"; "reference_point";
                "mantissa_bits"; "min_progress_ratio"])
    ["metaepoch_len"; "max_level"; "max_sprouts_no"; "sproutiveness";
     "comparison_multipliers"; "population_sizes"; "hgs_type"].

(** SPEA2.py:25-38, IBEA.py:11-26, NSGAII.py:29-43, OMOPSO.py:11-26, NSGAIII.py:16-30, JGBL.py:8-24,
    SMSEMOA.py:13-28, NSLS.py:11-26, IMGA.py:16-32: the [__init__] methods *)
Definition sigs_table : list (string * signature) :=
  [ ("SPEA2", leaf_sig (basics ++ variation) archived);
    ("IBEA", leaf_sig (basics ++ variation ++ ["kappa"; "mating_population_size"]) archived);
    ("NSGAII", leaf_sig (basics ++ variation ++ ["mating_population_size"]) archived);
    ("OMOPSO", leaf_sig (basics ++ variation)
                 (["mutation_perturbation"; "mutation_probability"] ++ archived));
    ("NSGAIII", leaf_sig (basics ++ ["mutation_eta"; "crossover_eta"])
                  (["mutation_rate"; "crossover_rate"; "theta"] ++ archived));
    ("JGBL", leaf_sig (basics ++ variation ++
                ["mating_population_size"; "jumping_rate"; "jumping_percentage"]) archived);
    ("SMSEMOA", leaf_sig (basics ++ variation ++ ["reference_point"])
                  (["epoch_length_multiplier"] ++ archived));
    ("NSLS", leaf_sig (basics ++ variation)
               (archived ++ ["local_search_mu"; "local_search_sigma"]));
    ("IMGA", complex_sig (basics ++ variation ++
                ["islands_number"; "migrants_number"; "epoch_length"; "driver"])
                ["topology"]);
    ("HGS", hgs_sig); ("DHGS", hgs_sig) ].

(** the __init__ of the class of each driver (algorithms/X/X.py, see the comment on the table). *)
Definition sigs (a : string) : option signature := get a sigs_table.

(** The keywords with which a composite driver creates its sub-drivers: IMGA.py:116-125,
    ClassicHGS.py:234-247, distributed/actors.py:242-259. *)
Definition calls (a : string) : list string :=
  if String.eqb a "IMGA" then (basics ++ variation ++ ["message_adapter_factory"])%list
  else if String.eqb a "HGS" then
    (basics ++ variation ++ archived ++ ["message_adapter_factory"])%list
  else if String.eqb a "DHGS" then
    (basics ++ variation ++ ["trim_function"; "message_adapter_factory"])%list
  else [].

(** * The job list *)

(** The command line options used: [--problem], [--algo] (absent: [None]), [-N], [<budget>],
    [--renice], [--dir]. *)
Record args : Type := {
  a_problem : option string;
  a_algo : option string;
  a_N : N;
  a_budget : string;
  a_renice : option string;
  a_dir : option string
}.

(** [args["--problem"]] is true when present and non-empty. factory.py:74-99. *)
Definition given (o : option string) : option string :=
  match o with
  | Some s => if truthy s then Some s else None
  | None => None
  end.

(** factory.py:74-87 [parse_problems] *)
Definition parse_problems (a : args) : list string :=
  match given (a_problem a) with
  | Some s => filter (fun p => str_in (lower p) (split ","%char (lower s))) problems
  | None => problems
  end.

(** factory.py:90-99 [parse_algorithms] *)
Definition parse_algorithms (a : args) : list string :=
  match given (a_algo a) with
  | Some s => filter (fun p => str_in (lower p) (split ","%char (lower s))) algorithms
  | None => []
  end.

(** factory.py:102-105 [parse_budgets]; [None] is the ValueError of [int] *)
Fixpoint all_some {A} (l : list (option A)) : option (list A) :=
  match l with
  | [] => Some []
  | Some x :: r => option_map (cons x) (all_some r)
  | None :: _ => None
  end.

(** factory.py:102-105. *)
Definition parse_budgets (a : args) : option (list N) :=
  option_map (sort_by N.leb) (all_some (map int_of_str (split ","%char (a_budget a)))).

(** One [SimulationCase] (model.py:13-30); its [id] is treated in IdModel.v. *)
Record case : Type := {
  c_problem : string;
  c_algo : string;
  c_run : nat
}.

(** factory.py:45-71 [create_simulation] *)
Definition create_simulation (a : args) : list case :=
  flat_map (fun pa =>
    map (fun r => {| c_problem := fst pa; c_algo := snd pa; c_run := r |})
        (seq 0 (N.to_nat (a_N a))))
    (list_prod (parse_problems a) (parse_algorithms a)).
