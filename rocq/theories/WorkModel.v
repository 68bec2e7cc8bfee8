(** Model of the job queue, of what a worker stores and of what is shared between drivers.
    Source: simulation/run_parallel.py, simulation/worker.py, algorithms/IMGA/IMGA.py,
    algorithms/HGS/HGS.py, statistic/stats.py. *)
From Verif Require Import Spec HgsModel.
From Coq Require Import QArith.
Local Open Scope nat_scope.

(** * The job queue *)
Section Queue.
  (** A simulation case, and what running its worker returns: simulation/worker.py:25-78,
      SimulationWorker.run - [Some t] for the triple whose second component is the processor
      time [t], [None] if the configuration is not viable or the run raised anything. *)
  Variable case : Type.
  Variable worker_run : case -> option Q.

  (** How rx's [run()] ends (run_parallel.py:44-50): an exception in process_result reaches it
      through do_action and the source is not asked for more; on a sequence without elements it
      raises SequenceContainsNoElementsError. *)
  Inductive ending := Completed | TypeErrorOnNone | NoElements.

  (** run_parallel.py:40-51. *)
  Record queue_run := {
    q_executed : list case;          (* the cases whose workers were run, in order *)
    q_results : list (option Q);     (* the list results *)
    q_ending : ending
  }.

  (** run_parallel.py:40-50: the workers are run one after the other; process_result appends the
      result and then takes its last component ([None[-1]] is a TypeError).  log_simulation_stats
      catches its only possible exception and is left out. *)
  Fixpoint queue (cases : list case) (executed : list case) (results : list (option Q)) : queue_run :=
    match cases with
    | [] => {| q_executed := executed; q_results := results; q_ending := Completed |}
    | c :: rest =>
        let subres := worker_run c in
        let executed' := executed ++ [c] in
        let results' := results ++ [subres] in
        match subres with
        | None => {| q_executed := executed'; q_results := results'; q_ending := TypeErrorOnNone |}
        | Some _ => queue rest executed' results'
        end
    end.

  (** run_parallel.py:40-51. *)
  Definition run_queue (cases : list case) : queue_run :=
    match cases with
    | [] => {| q_executed := []; q_results := []; q_ending := NoElements |}
    | _ => queue cases [] []
    end.

  (** run_parallel.py:74-94 log_summary: total processor time and the list of errors (the cases are
      printed by configuration and run id). *)
  Record summary := { s_time : Q; s_errors : list case }.

  (** run_parallel.py:74-98. *)
  Definition log_summary (results : list (option Q)) (cases : list case) : summary :=
    {| s_time := fold_left Qplus (flat_map (fun r => match r with Some t => [t] | None => [] end) results) 0%Q;
       s_errors := flat_map (fun rc => match fst rc with None => [snd rc] | Some _ => [] end)
                            (combine results cases) |}.

  (** run_parallel.py:19-53 after the shuffle: the summary is written only if [run()] returned. *)
  Definition run_parallel (cases : list case) : queue_run * option summary :=
    let q := run_queue cases in
    (q, match q_ending q with Completed => Some (log_summary (q_results q) cases) | _ => None end).
End Queue.
Arguments q_executed {case}. Arguments q_results {case}. Arguments q_ending {case}.
Arguments s_time {case}. Arguments s_errors {case}.

(** * What is stored *)
Section Store.
  (** A Python iterable: a list, or an iterator with what it has yet to yield.
      worker.py:115-121. *)
  Inductive iterable := Sequence (l : list vec) | OneShot (l : list vec).

  (** Iterating to the end: what is seen and what the object holds afterwards.
      worker.py:115-121, serializer.py:32-34. *)
  Definition iterate (it : iterable) : list vec * iterable :=
    match it with
    | Sequence l => (l, Sequence l)
    | OneShot l => (l, OneShot [])
    end.

  (** The drivers by what finalized_population() gives: a list comprehension over the individuals or
      the archive (SMSEMOA.py:55, BOGO.py:47, NSGAII.py:72, IBEA.py:52, SPEA2.py:64, NSLS.py:60,
      NSGAIII.py:114, OMOPSO.py:71; JGBL inherits NSGAII's), the merged list of HGS (ClassicHGS.py:86-90,
      DistributedHGS.py:102-107), or itertools.chain over the islands (IMGA.py:62-65). *)
  Inductive finalized_by := Listed (l : list vec) | Merged (nodes : list (list vec)) | Chained (islands : list finalized_by).

  (** the finalized_population methods listed above (e.g. IMGA.py:62-65). *)
  Fixpoint finalized (d : finalized_by) : iterable :=
    match d with
    | Listed l => Sequence l
    | Merged ns => Sequence (concat ns)
    | Chained is => OneShot (concat (map (fun i => fst (iterate (finalized i))) is))
    end.

  Variable fitnesses : list (vec -> Z).

  (** simulation/worker.py:115-121 and 159-169: the fitness lists are computed by iterating over the
      population object, which is stored, and returned, afterwards. *)
  Record stored := { st_population : iterable; st_fitnesses : list (list Z) }.

  (** worker.py:115-121, 159-170. *)
  Definition process_results (d : finalized_by) : stored :=
    let finalpop := finalized d in
    let '(xs, finalpop') := iterate finalpop in
    let finalpop_fit := map (fun x => map (fun fit => fit x) fitnesses) xs in
    {| st_population := finalpop'; st_fitnesses := finalpop_fit |}.

  (** statistic/stats.py:96 len(x.population) of a loaded result; [None] is the TypeError for an
      iterator.  Pickling keeps lists lists and iterators iterators. *)
  Definition population_len (s : stored) : option nat :=
    match st_population s with Sequence l => Some (length l) | OneShot _ => None end.
End Store.

(** * What later runs in the same process see *)
Section Session.
  Variables drv draw : Type.
  Variable dnew : nat -> draw -> list vec -> option drv.
  Variable dstep : draw -> drv -> option drv.
  Variable dcost : drv -> Z.
  Variable dfinal : draw -> drv -> option (drv * list vec).
  Variable ddelegates : drv -> option (list vec).
  Variable hv_of : list vec -> Q.
  Variable raw : Z -> Z -> Z -> Z -> Z.
  Variable EPSILON : Q.
  Variable C : config.

  (** One run of HGS: the initial sample, the population and the draws of each step.
      run_parallel.py:44-50, worker.py:25-78. *)
  Record experiment := {
    x_sampling : nat -> nat; x_draw : draw; x_population : list vec; x_steps : list (step_draws draw) }.

  (** factory.py:316-334 takes the list run_config.algo_base["HGS"]["min_progress_ratio"] itself (no
      copy) into the configuration, HGS.py:57 and ClassicHGS.py:64 keep it, and ClassicHGS.py:206
      assigns to its entries.  So the list in run_config after a run is the run's own list:
      [ratios] is that object's contents.  Everything else in the configuration is a tuple, a number
      or a list that is only read. *)
  Definition run_hgs (ratios : list Q) (x : experiment) : outcome (hgs drv * list Q) :=
    do s0 <- hgs_init drv draw dnew C (x_sampling x) (x_draw x) ratios (x_population x);
    do s <- hgs_run drv draw dnew dstep dcost dfinal ddelegates hv_of raw EPSILON C (x_steps x) s0;
    Ok (s, min_progress_ratio s).

  (** run_parallel.py:44-50: the runs follow each other in one process. *)
  Fixpoint session (ratios : list Q) (xs : list experiment) : outcome (list (hgs drv)) :=
    match xs with
    | [] => Ok []
    | x :: rest =>
        do (s, ratios') <- run_hgs ratios x;
        do ss <- session ratios' rest;
        Ok (s :: ss)
    end.
End Session.
Arguments x_sampling {draw}. Arguments x_draw {draw}. Arguments x_population {draw}. Arguments x_steps {draw}.

(** * The budget announced to the drivers *)

(** The attribute max_budget of a driver and of the drivers inside it.
    driver.py:29-35, IMGA.py:57-60. *)
Inductive driver_tree := Driver (max_budget : option Q) (subs : list driver_tree).
(** driver.py:31. *)
Definition known (d : driver_tree) : option Q := match d with Driver b _ => b end.
(** IMGA.py:114-130, ClassicHGS.py:228-259: the drivers of the islands or nodes. *)
Definition inside (d : driver_tree) : list driver_tree := match d with Driver _ subs => subs end.

(** How a driver is built: one of the plain algorithms, IMGA with its islands, or HGS with the wrapped
    algorithm and its nodes. factory.py:118-202. *)
Inductive plan := Plain | Imga (islands : nat) (sub : plan) | Hgs (nodes : nat) (sub : plan).

(** IMGA.py:57-60. *)
Definition spread (b : option Q) (subs : list driver_tree) : list driver_tree :=
  match b with
  | None => subs
  | Some _ => map (fun d => Driver b (inside d)) subs
  end.

(** driver.py:30-31 max_budget = None; IMGA.py:48-60 the islands, then spread_budget_info, still in
    the constructor; HGS.py:43-68 and ClassicHGS.py:76-84 wrap the algorithm and its nodes. *)
Fixpoint construct (p : plan) : driver_tree :=
  match p with
  | Plain => Driver None []
  | Imga n sub =>
      let self := None in
      Driver self (spread self (repeat (construct sub) n))
  | Hgs n sub => Driver None [Driver None (repeat (construct sub) n)]
  end.

(** simulation/worker.py:123 driver.max_budget = self.budgets[-1] *)
Definition announce (b : Q) (d : driver_tree) : driver_tree := Driver (Some b) (inside d).

(** algorithms/OMOPSO/OMOPSO.py:82: the progress OMOPSO bases its mutation on. *)
Definition omopso_progress (cost : Q) (d : driver_tree) : option Q :=
  match known d with
  | Some b => if Qeq_bool b 0 then None else Some (if Qle_bool 1 (cost / b) then 1 else cost / b)%Q
  | None => None
  end.
