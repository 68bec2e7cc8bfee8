(** Building the configuration of a driver: simulation/factory.py:108-375 over
    simulation/run_config.py.

    Simplifications: logging is dropped ([show_conf] and [show_partial] only feed it); option
    values are an abstract type [V]; importing a module is a lookup in a table of the modules
    that exist; the initial population drawn by [gen_population] is an oracle. *)
Require Import String Ascii List Arith Bool.
From Verif Require Import PyStr.
Import ListNotations.
Open Scope string_scope.

(** * Python dictionaries with string keys, in insertion order *)
Section Dict.
  Context {A : Type}.
  (** factory.py:138-165: config, a Python dict in insertion order. *)
  Definition dict := list (string * A).

  (** [d.get(k)]. factory.py:205-213. *)
  Fixpoint get (k : string) (d : dict) : option A :=
    match d with
    | [] => None
    | (k', v) :: r => if String.eqb k k' then Some v else get k r
    end.

  (** [d[k] = v]: replace in place, or append. factory.py:138-165. *)
  Fixpoint put (k : string) (v : A) (d : dict) : dict :=
    match d with
    | [] => [(k, v)]
    | (k', v') :: r => if String.eqb k k' then (k, v) :: r else (k', v') :: put k v r
    end.

  (** [d.update(u)]. factory.py:138-165. *)
  Definition update (d u : dict) : dict :=
    fold_left (fun acc kv => put (fst kv) (snd kv) acc) u d.

  (** factory.py:138-165: the keys of config, as they are passed to the class by name. *)
  Definition keys (d : dict) : list string := map fst d.
End Dict.
Arguments dict : clear implicits.

(** * Outcomes.
    factory.py:108-202: prepare gives a value, raises NotViableConfiguration, or raises something else. *)
Inductive res (A : Type) : Type :=
| Ok (a : A)
| NotViable                      (* run_config.NotViableConfiguration *)
| Error (what : string).         (* any other exception *)
Arguments Ok {A} a.
Arguments NotViable {A}.
Arguments Error {A} what.

Section Conf.
  Context {V : Type}.

  (** A configuration value: an option, the sub-driver as [partial(cls, **config)], or a
      message adapter class. factory.py:138-165. *)
  Inductive val : Type :=
  | Plain (v : V)
  | Partial (algo : string) (config : list (string * val))
  | Adapter (modul cls : string).

  (** factory.py:138: config. *)
  Definition conf := dict val.

  (** What a problem module offers: [problem_mod.dims], [problem_mod.fitnesses] and the rest
      ([extra] stands for [pareto_front]). factory.py:108-115, 205-213, 337-341. *)
  Record problem_mod : Type := { pm_dims : V; pm_fitnesses : V; pm_extra : V }.

  (** What calling an initialiser hook does to [config]: it may finish, or raise having
      changed the dictionary; an AttributeError is told apart because [custom_init]
      suppresses it (factory.py:237). *)
  Inductive hook_result : Type :=
  | HDone (c : conf)
  | HAttributeError (c : conf)
  | HNotViable
  | HError (what : string).

  (** Keys of [run_config.algo_base]: a name, or (name, tuple of sub-drivers).
      factory.py:291-334. *)
  Inductive akey : Type :=
  | KName (a : string)
  | KSubs (a : string) (subs : list string).

  (** [simulation/run_config.py], the modules that exist, and the random population. *)
  Record world : Type := {
    w_algo_base : akey -> option conf;
    w_cust_base : list string -> option conf;
    w_hooks : string -> option (problem_mod -> conf -> hook_result);
    w_class : string -> bool;                       (* prepare_algorithm_class succeeds *)
    w_problem : string -> option problem_mod;       (* prepare_problem_class *)
    w_adapter : string -> string -> bool;           (* algorithms.X.message has class C *)
    w_population : list string -> problem_mod -> V  (* gen_population(64, dims); drawn afresh
                                                       for each driver of the chain, here
                                                       told apart by its sub-drivers *)
  }.

  Variable w : world.

  (** factory.py:337-341 [load_obligatory_problem_parameters] *)
  Definition load_obligatory (pm : problem_mod) (c : conf) : conf :=
    update c [("dims", Plain (pm_dims pm)); ("fitnesses", Plain (pm_fitnesses pm))].

  (** [config.update(table[key])] under [suppress(KeyError)]. factory.py:291-334. *)
  Definition update_from (table : option conf) (c : conf) : conf :=
    match table with
    | Some u => update c u
    | None => c
    end.

  (** factory.py:316-334 [load_algorithm_config] *)
  Definition load_algorithm_config (algo : string) (c : conf) : conf :=
    update_from (w_algo_base w (KName algo)) c.

  (** factory.py:291-313 [load_algorithm_with_subdrivers_config] *)
  Definition load_subdrivers_config (algo : string) (drivers : list string) (pos : nat)
    (c : conf) : conf :=
    update_from (w_algo_base w (KSubs algo (skipn (S pos) drivers))) c.

  (** factory.py:254-288 [load_problem_config]; [drivers = []] when the argument is left
      out *)
  Definition load_problem_config (algo problem : string) (drivers : list string) (pos : nat)
    (c : conf) : conf :=
    update_from (w_cust_base w (algo :: skipn (S pos) drivers ++ [problem])) c.

  (** factory.py:238-242: the name of the hook; [drivers = []] and [problem = ""] stand for
      the arguments left out. *)
  Definition hook_key (algo : string) (drivers : list string) (pos : nat) (problem : string)
    : string :=
    "init_alg___" ++ algo
    ++ (match drivers with [] => "" | _ => "__" ++ join "_" (skipn (S pos) drivers) end)
    ++ (if truthy problem then "____" ++ problem else "").

  (** factory.py:216-251 [custom_init] *)
  Definition custom_init (algo : string) (pm : problem_mod) (drivers : list string)
    (pos : nat) (problem : string) (c : conf) : res conf :=
    match w_hooks w (hook_key algo drivers pos problem) with
    | None => Ok c
    | Some h =>
        match h pm c with
        | HDone c' => Ok c'
        | HAttributeError c' => Ok c'
        | HNotViable => NotViable
        | HError e => Error e
        end
    end.

  (** factory.py:205-213 [load_init_population] *)
  Definition load_init_population (subs : list string) (pm : problem_mod) (c : conf)
    : conf :=
    match get "population" c with
    | Some _ => c
    | None => update c [("population", Plain (w_population w subs pm))]
    end.

  (** factory.py:361-375 [prepare_message_adapter_class]; the bare [except] turns a
      missing module or class into NotViableConfiguration. *)
  Definition prepare_message_adapter (algo : string) (drivers : list string) (pos : nat)
    : res val :=
    match nth_error drivers (S pos) with
    | None => Error "IndexError"
    | Some d =>
        let cls := d ++ algo ++ "MessageAdapter" in
        if w_adapter w d cls then Ok (Adapter d cls) else NotViable
    end.

  (** factory.py:142-152: the sub-driver and its adapter, when there is a sub-driver. *)
  Definition load_driver (algo : string) (driver : option val) (drivers : list string)
    (pos : nat) (c : conf) : res conf :=
    match driver with
    | None => Ok c
    | Some d =>
        match prepare_message_adapter algo drivers pos with
        | Ok a => Ok (update (update c [("driver", d)])
                             [("driver_message_adapter_factory", a)])
        | NotViable => NotViable
        | Error e => Error e
        end
    end.

  (** factory.py:118-202: an exception ends prepare_with_driver. *)
  Definition bind {A B} (r : res A) (f : A -> res B) : res B :=
    match r with Ok a => f a | NotViable => NotViable | Error e => Error e end.

  (** factory.py:118-202 [prepare_with_driver] *)
  Definition prepare_with_driver (algo problem : string) (driver : option val)
    (drivers : list string) (pos : nat) : res val :=
    if w_class w algo then
      match w_problem w problem with
      | None => Error "ModuleNotFoundError"
      | Some pm =>
          bind (load_driver algo driver drivers pos (load_obligatory pm [])) (fun c =>
          let c := load_algorithm_config algo c in
          let c := load_subdrivers_config algo drivers pos c in
          let c := load_problem_config algo problem [] 0 c in
          let c := load_problem_config algo problem drivers pos c in
          bind (custom_init algo pm [] 0 "" c) (fun c =>
          bind (custom_init algo pm drivers pos "" c) (fun c =>
          bind (custom_init algo pm [] 0 problem c) (fun c =>
          bind (custom_init algo pm drivers pos problem c) (fun c =>
          Ok (Partial algo (load_init_population (skipn (S pos) drivers) pm c)))))))
      end
    else Error "ModuleNotFoundError".

  (** factory.py:108-115 [prepare]: from the last driver to the first; the loop over
      [list(enumerate(drivers))[::-1]] runs on the positions [n-1, ..., 0]. *)
  Fixpoint prepare_from (problem : string) (drivers : list string) (n : nat)
    (driver : option val) : res (option val) :=
    match n with
    | O => Ok driver
    | S pos =>
        match nth_error drivers pos with
        | None => Error "unreachable"
        | Some a =>
            bind (prepare_with_driver a problem driver drivers pos) (fun d =>
            prepare_from problem drivers pos (Some d))
        end
    end.

  (** factory.py:108-115: algo.split("+"), then the drivers from the last to the first. *)
  Definition prepare (algo problem : string) : res (option val) :=
    let drivers := split "+"%char algo in
    prepare_from problem drivers (List.length drivers) None.
End Conf.
Arguments val : clear implicits.
Arguments conf : clear implicits.
Arguments problem_mod : clear implicits.
Arguments world : clear implicits.
Arguments hook_result : clear implicits.
