(** Property theorems C01-C06: budget runs, step runs, timed runs and the workers storing results. *)
From Verif Require Import Spec RunModel RunSpec RunProofs.
Local Open Scope Z_scope.

(** C01 - a terminating budget run performs exactly the steps up to the first state whose cost reaches
    the budget; it terminates whenever the budget can be reached and loops otherwise. *)
Theorem C01_budget_run :
  forall (S : Type) (step : S -> S) (cost : S -> Z) (b : Z) (d : driver S),
    (forall fuel ms d', budget_run step cost fuel b d = Some (ms, d') ->
       exists n, first_reaching step cost b (d_state d) n /\
         d_state d' = after step n (d_state d) /\ length ms = n /\
         forall k, (k < n)%nat ->
           nth_error ms k = Some {| p_step_no := (d_step_no d + k)%nat;
                                    p_cost := cost (after step (Datatypes.S k) (d_state d)) |}) /\
    (forall n, first_reaching step cost b (d_state d) n ->
       exists fuel ms d', budget_run step cost fuel b d = Some (ms, d')) /\
    ((forall n, cost (after step n (d_state d)) < b) ->
       forall fuel, budget_run step cost fuel b d = None).
Proof. exact (fun S step cost b d => budget_run_correct step cost b d). Qed.
Print Assumptions C01_budget_run.

Theorem C01_budget_run_costs :
  forall (S : Type) (step : S -> S) (cost : S -> Z) fuel b (d : driver S) ms d',
    budget_run step cost fuel b d = Some (ms, d') ->
    Forall (fun m => p_cost m < b) (removelast ms) /\
    (forall m, last (map Some ms) None = Some m -> b <= p_cost m) /\
    (b <= cost (d_state d) -> ms = [] /\ d' = d) /\
    b <= cost (d_state d').
Proof. exact (fun S step cost => budget_run_costs step cost). Qed.
Print Assumptions C01_budget_run_costs.

(** A driver whose state counts its steps, each costing 3. *)
Definition ex_step (s : nat) : nat := Datatypes.S s.
Definition ex_cost (s : nat) : Z := 3 * Z.of_nat s.
Definition ex_final (s : nat) : nat * nat := (s, s).

Example C01_example :
  budget_run ex_step ex_cost 5 7 {| d_state := 0%nat; d_step_no := 0 |} =
    Some ([ {| p_step_no := 0; p_cost := 3 |}; {| p_step_no := 1; p_cost := 6 |};
            {| p_step_no := 2; p_cost := 9 |} ], {| d_state := 3%nat; d_step_no := 3 |})
  /\ first_reaching ex_step ex_cost 7 0%nat 3.
Proof.
  split; [reflexivity|]. split; [vm_compute; discriminate|].
  intros [|[|[|j]]] Hj; try lia; reflexivity.
Qed.

(** C02 *)
Theorem C02_steps_run :
  forall (S : Type) (step : S -> S) (cost : S -> Z) (n : nat) (d : driver S),
    length (fst (steps_run step cost n d)) = n /\
    d_state (snd (steps_run step cost n d)) = after step n (d_state d) /\
    d_step_no (snd (steps_run step cost n d)) = (d_step_no d + n)%nat.
Proof. exact (fun S step cost n d => steps_run_correct step cost n d). Qed.
Print Assumptions C02_steps_run.

(** Any history of runs on a fresh driver: the k-th message overall has number k and the cost right
    after that step of the trajectory. *)
Theorem C02_numbering_over_any_history :
  forall (S : Type) (step : S -> S) (cost : S -> Z) fuel (rs : list run) (s : S) ms d',
    run_history step cost fuel rs {| d_state := s; d_step_no := 0 |} = Some (ms, d') ->
    d_state d' = after step (length ms) s /\ d_step_no d' = length ms /\
    forall k m, nth_error ms k = Some m ->
      p_step_no m = k /\ p_cost m = cost (after step (Datatypes.S k) s).
Proof. exact (fun S step cost => run_history_numbered step cost). Qed.
Print Assumptions C02_numbering_over_any_history.

Example C02_example :
  exists d', run_history ex_step ex_cost 9 [RunSteps 2; RunBudget 10; RunSteps 1]
    {| d_state := 0%nat; d_step_no := 0 |} =
  Some ([ {| p_step_no := 0; p_cost := 3 |}; {| p_step_no := 1; p_cost := 6 |};
          {| p_step_no := 2; p_cost := 9 |}; {| p_step_no := 3; p_cost := 12 |};
          {| p_step_no := 4; p_cost := 15 |} ], d').
Proof. eexists. reflexivity. Qed.

(** C03 - for drivers whose finalized_population() does not change the state.  The last two clauses say
    that no step was repeated or skipped: the driver ends exactly where the last budget was reached. *)
Theorem C03_budget_worker_trajectory :
  forall (S P : Type) (step : S -> S) (cost : S -> Z) (finalize : S -> S * P) fuel budgets s rs d',
    (forall s, fst (finalize s) = s) -> StronglySorted Z.le budgets ->
    budget_worker step cost finalize fuel budgets {| d_state := s; d_step_no := 0 |} = Some (rs, d') ->
    Forall2 (fun b r => exists k, first_reaching step cost b s k /\
                st_name r = b /\ st_population r = snd (finalize (after step k s)) /\
                st_cost r = cost (after step k s)) budgets rs /\
    d_state d' = after step (d_step_no d') s /\
    (forall b, last (map Some budgets) None = Some b -> first_reaching step cost b s (d_step_no d')).
Proof. exact (fun S P step cost finalize => budget_worker_trajectory step cost finalize). Qed.
Print Assumptions C03_budget_worker_trajectory.

(** For every driver whose finalized_population() does not lower the cost (state changes allowed). *)
Theorem C03_budget_worker_costs :
  forall (S P : Type) (step : S -> S) (cost : S -> Z) (finalize : S -> S * P) fuel budgets,
    (forall s, cost s <= cost (fst (finalize s))) ->
    forall d rs d',
    budget_worker step cost finalize fuel budgets d = Some (rs, d') ->
    map (@st_name P) rs = budgets /\
    Forall (fun r => st_name r <= st_cost r) rs /\
    Forall (fun r => cost (d_state d) <= st_cost r) rs /\
    StronglySorted (fun r1 r2 => st_cost r1 <= st_cost r2) rs.
Proof. exact (fun S P step cost finalize => budget_worker_costs step cost finalize). Qed.
Print Assumptions C03_budget_worker_costs.

(** The worker terminates when every budget can be reached from every state. *)
Theorem C03_budget_worker_terminates :
  forall (S P : Type) (step : S -> S) (cost : S -> Z) (finalize : S -> S * P) budgets d,
    (forall b, In b budgets -> forall s, exists k, first_reaching step cost b s k) ->
    exists fuel rs d', budget_worker step cost finalize fuel budgets d = Some (rs, d').
Proof. exact (fun S P step cost finalize => budget_worker_progress step cost finalize). Qed.
Print Assumptions C03_budget_worker_terminates.

Example C03_example :
  option_map fst (budget_worker ex_step ex_cost ex_final 9 [4; 5; 10] {| d_state := 0%nat; d_step_no := 0 |}) =
    Some [ {| st_name := 4; st_population := 2%nat; st_cost := 6 |};
           {| st_name := 5; st_population := 2%nat; st_cost := 6 |};
           {| st_name := 10; st_population := 4%nat; st_cost := 12 |} ]
  /\ StronglySorted Z.le [4; 5; 10].
Proof. split; [reflexivity|]. repeat constructor; lia. Qed.

(** C04 - a completed timed run: [n] driver steps are performed, the n-th being the first that brings the
    elapsed time to the timeout; delivered times are nothing (after a single step) or exactly
    step, 2*step, ..., floor(timeout/step)*step. *)
Theorem C04_time_run_slots :
  forall (S : Type) (step : S -> S) (cost : S -> Z) tstep timeout, 0 < tstep ->
  forall durs d es d',
    time_run step cost tstep timeout durs d = Some (es, d') ->
    exists n, (n <= length durs)%nat /\
      d' = {| d_state := after step n (d_state d); d_step_no := (d_step_no d + n)%nat |} /\
      timeout <= fold_right Z.add 0 (firstn n durs) /\
      (forall j, (j < n)%nat -> fold_right Z.add 0 (firstn j durs) < timeout) /\
      map (@e_time S) es =
        if (n =? 1)%nat then [] else map (fun k => k * tstep) (zrange 1 (timeout / tstep)).
Proof. exact (fun S step cost => time_run_times step cost). Qed.
Print Assumptions C04_time_run_slots.

(** Each delivered message carries the progress of step k where slot time t satisfies
    finish(k) < t <= finish(k+1), or k is the first step and t <= finish(1). *)
Theorem C04_time_run_message_progress :
  forall (S : Type) (step : S -> S) (cost : S -> Z) tstep timeout, 0 < tstep ->
  forall durs s k0 es d',
    time_run step cost tstep timeout durs {| d_state := s; d_step_no := k0 |} = Some (es, d') ->
    Forall (fun em => exists k,
      e_msg em = {| p_step_no := (k0 + k)%nat; p_cost := cost (after step (Datatypes.S k) s) |} /\
      (Datatypes.S k < length durs)%nat /\
      e_time em <= finish_time durs (Datatypes.S k) /\
      (k = 0%nat \/ finish_time durs k < e_time em) /\
      e_state em = after step (Datatypes.S (Datatypes.S k)) s) es.
Proof. exact (fun S step cost => time_run_fresh step cost). Qed.
Print Assumptions C04_time_run_message_progress.

Theorem C04_time_run_terminates :
  forall (S : Type) (step : S -> S) (cost : S -> Z) tstep timeout durs n d,
    (n <= length durs)%nat -> timeout <= fold_right Z.add 0 (firstn n durs) ->
    exists es d', time_run step cost tstep timeout durs d = Some (es, d').
Proof. exact (fun S step cost => time_run_progress step cost). Qed.
Print Assumptions C04_time_run_terminates.

Example C04_example :
  option_map (fun r => map (fun e => (e_time e, p_step_no (e_msg e), e_state e)) (fst r))
    (time_run ex_step ex_cost 10 35 [4; 12; 9; 30] {| d_state := 0%nat; d_step_no := 0 |}) =
  Some [(10, 0%nat, 2%nat); (20, 1%nat, 3%nat); (30, 2%nat, 4%nat)].
Proof. reflexivity. Qed.

(** C05 - completeness holds unless exactly one step was performed... *)
Theorem C05_time_run_complete_partial :
  forall (S : Type) (step : S -> S) (cost : S -> Z) tstep timeout, 0 < tstep ->
  forall durs d es d',
    time_run step cost tstep timeout durs d = Some (es, d') ->
    d_step_no d' <> (d_step_no d + 1)%nat ->
    forall k, 1 <= k -> k * tstep <= timeout ->
      exists em, In em es /\ e_time em = k * tstep.
Proof. exact (fun S step cost => time_run_complete step cost). Qed.
Print Assumptions C05_time_run_complete_partial.

(** ... and fails otherwise: one step of 100 time units, slots every 10 up to 50, nothing is delivered. *)
Theorem C05_time_run_complete_refuted :
  exists (S : Type) (step : S -> S) (cost : S -> Z) tstep timeout durs d es d' k,
    0 < tstep /\ time_run step cost tstep timeout durs d = Some (es, d') /\
    1 <= k /\ k * tstep <= timeout /\ forall em, In em es -> e_time em <> k * tstep.
Proof. exact time_run_complete_refuted. Qed.
Print Assumptions C05_time_run_complete_refuted.

Example C05_example :
  exists es d', time_run ex_step ex_cost 10 35 [40] {| d_state := 0%nat; d_step_no := 0 |} = Some (es, d') /\ es = [].
Proof. eexists _, _. split; reflexivity. Qed.

(** C06 - what is stored for slot t is the state after the first step that finishes at or after t
    (or the second step, when t precedes the end of the first). *)
Theorem C06_time_worker_partial :
  forall (S P : Type) (step : S -> S) (cost : S -> Z) (finalize : S -> S * P) tstep timeout, 0 < tstep ->
  forall durs s k0 rs,
    time_worker step cost finalize tstep timeout durs {| d_state := s; d_step_no := k0 |} = Some rs ->
    Forall (fun r => exists j, (1 <= j < length durs)%nat /\
      st_population r = snd (finalize (after step (Datatypes.S j) s)) /\
      st_cost r = cost (after step (Datatypes.S j) s) /\
      st_name r <= finish_time durs j /\
      (j = 1%nat \/ finish_time durs (j - 1) < st_name r)) rs.
Proof. exact (fun S P step cost finalize => time_worker_state step cost finalize). Qed.
Print Assumptions C06_time_worker_partial.

(** The property itself fails: a result filed under slot t that no state reached by time t produces. *)
Theorem C06_time_worker_refuted :
  exists (S P : Type) (step : S -> S) (cost : S -> Z) (finalize : S -> S * P) tstep timeout durs s rs r,
    0 < tstep /\ Forall (fun dt => 0 < dt) durs /\
    time_worker step cost finalize tstep timeout durs {| d_state := s; d_step_no := 0 |} = Some rs /\
    In r rs /\
    forall k, (k <= length durs)%nat -> st_population r = snd (finalize (after step k s)) ->
      (0 < k)%nat /\ st_name r < finish_time durs (k - 1).
Proof. exact time_worker_refuted. Qed.
Print Assumptions C06_time_worker_refuted.

Example C06_example :
  time_worker ex_step ex_cost ex_final 10 20 [4; 100] {| d_state := 0%nat; d_step_no := 0 |} =
    Some [ {| st_name := 10; st_population := 2%nat; st_cost := 6 |};
           {| st_name := 20; st_population := 2%nat; st_cost := 6 |} ].
Proof. reflexivity. Qed.
