(** Model of driver stepping and of the run controllers and workers.
    Source: algorithms/base/driver.py, algorithms/base/model.py, simulation/worker.py *)
From Verif Require Import Spec.
Local Open Scope Z_scope.

(** algorithms/base/model.py:16-19, 45-50 - ProgressMessage(step_no, cost). *)
Record progress := { p_step_no : nat; p_cost : Z }.

Section Driver.
  (** An algorithm is an arbitrary state machine.  The state includes the random
      generator, so [step] is a function; exceptions raised inside step() are not modelled.
      [cost] is the attribute driver.cost.  [finalize] is finalized_population(), which may
      change the state; its second component is the returned population. *)
  Context {S P : Type} (step : S -> S) (cost : S -> Z) (finalize : S -> S * P).

  (** algorithms/base/driver.py:29-35 *)
  Record driver := { d_state : S; d_step_no : nat }.

  (** algorithms/base/driver.py:21-24, 43-45 - next_step wrapped by counting_step: the
      message is built (with the old step_no) before step_no is incremented. *)
  Definition next_step (d : driver) : progress * driver :=
    let s' := step (d_state d) in
    ({| p_step_no := d_step_no d; p_cost := cost s' |},
     {| d_state := s'; d_step_no := Datatypes.S (d_step_no d) |}).

  (** algorithms/base/driver.py:69-72 - BudgetRun._start.  [None] = still looping when the
      fuel is used up. *)
  Fixpoint budget_run (fuel : nat) (budget : Z) (d : driver) : option (list progress * driver) :=
    if cost (d_state d) <? budget then
      match fuel with
      | O => None
      | Datatypes.S fuel' =>
          let (m, d') := next_step d in
          match budget_run fuel' budget d' with
          | Some (ms, d'') => Some (m :: ms, d'')
          | None => None
          end
      end
    else Some ([], d).

  (** algorithms/base/driver.py:79-80 - StepsRun: rx.range(0, steps) mapped to next_step. *)
  Fixpoint steps_run (n : nat) (d : driver) : list progress * driver :=
    match n with
    | O => ([], d)
    | Datatypes.S n' =>
        let (m, d') := next_step d in
        let (ms, d'') := steps_run n' d' in (m :: ms, d'')
    end.

  (** A history of runs on the same driver. driver.py:57-110. *)
  Inductive run := RunSteps (n : nat) | RunBudget (b : Z).
  (** driver.py:69-80: one run after the other. *)
  Fixpoint run_history (fuel : nat) (rs : list run) (d : driver) : option (list progress * driver) :=
    match rs with
    | [] => Some ([], d)
    | r :: rs' =>
        match (match r with
               | RunSteps n => Some (steps_run n d)
               | RunBudget b => budget_run fuel b d
               end) with
        | None => None
        | Some (ms, d') =>
            match run_history fuel rs' d' with
            | None => None
            | Some (ms', d'') => Some (ms ++ ms', d'')
            end
        end
    end.

  (** simulation/worker.py:115-121 - what process_results stores (the fitness list is a
      function of the population and is left out); the cost is read after
      finalized_population() has run. *)
  Record stored := { st_name : Z; st_population : P; st_cost : Z }.

  (** worker.py:115-121. *)
  Definition process_budget (b : Z) (d : driver) : stored * driver :=
    let (s', pop) := finalize (d_state d) in
    ({| st_name := b; st_population := pop; st_cost := cost s' |},
     {| d_state := s'; d_step_no := d_step_no d |}).

  (** simulation/worker.py:123-139 - one BudgetRun per budget on the same driver. *)
  Fixpoint budget_worker (fuel : nat) (budgets : list Z) (d : driver) : option (list stored * driver) :=
    match budgets with
    | [] => Some ([], d)
    | b :: bs =>
        match budget_run fuel b d with
        | None => None
        | Some (_, d1) =>
            let (r, d2) := process_budget b d1 in
            match budget_worker fuel bs d2 with
            | None => None
            | Some (rs, d3) => Some (r :: rs, d3)
            end
        end
    end.

  (** ---- TimeRun ---- *)

  (** A delivered TimeProgressMessage (algorithms/base/model.py:22-25) together with the driver
      state at the moment of delivery, which is what TimeWorker reads. *)
  Record emission := { e_time : Z; e_msg : progress; e_state : S }.

  Context (tstep timeout : Z).

  (** algorithms/base/driver.py:101-107 - the inner for loop: [count] more slots. *)
  Fixpoint emit_slots (count : nat) (step_no : Z) (prev : progress) (s : S) : list emission * Z :=
    match count with
    | O => ([], step_no)
    | Datatypes.S c =>
        let step_no' := step_no + 1 in
        let emission_time := step_no' * tstep in
        let (es, n) := emit_slots c step_no' prev s in
        ((if emission_time <=? timeout
          then [{| e_time := step_no' * tstep; e_msg := prev; e_state := s |}] else []) ++ es, n)
    end.

  (** algorithms/base/driver.py:93-110 - TimeRun._start.  [durs] is the clock oracle: the
      measured duration of each driver step (any integers, in a unit in which tstep and
      timeout are integers too).  [None] = the clock oracle was exhausted before the loop ended. *)
  Fixpoint time_loop (durs : list Z) (elapsed step_no : Z) (previous : option progress) (d : driver)
    : option (list emission * driver) :=
    if elapsed <? timeout then
      match durs with
      | [] => None
      | dt :: durs' =>
          let (result, d') := next_step d in
          let elapsed' := elapsed + dt in
          let since := elapsed' - tstep * step_no in
          let '(es, step_no') :=
            match previous with
            | Some prev => emit_slots (Z.to_nat (since / tstep)) step_no prev (d_state d')
            | None => ([], step_no)
            end in
          match time_loop durs' elapsed' step_no' (Some result) d' with
          | Some (es', d'') => Some (es ++ es', d'')
          | None => None
          end
      end
    else Some ([], d).

  (** driver.py:93-110. *)
  Definition time_run (durs : list Z) (d : driver) : option (list emission * driver) :=
    time_loop durs 0 0 None d.

  (** simulation/worker.py:159-170 - TimeWorker.process_results, run at each delivery: it asks the
      driver for its population and cost at that moment (modelled for drivers whose
      finalized_population does not change the state) and files them under the slot time. *)
  Definition time_worker_store (e : emission) : stored :=
    {| st_name := e_time e; st_population := snd (finalize (e_state e)); st_cost := cost (e_state e) |}.

  (** worker.py:146-175. *)
  Definition time_worker (durs : list Z) (d : driver) : option (list stored) :=
    match time_run durs d with
    | Some (es, _) => Some (map time_worker_store es)
    | None => None
    end.
End Driver.
Arguments driver : clear implicits.
Arguments stored : clear implicits.
Arguments emission : clear implicits.
