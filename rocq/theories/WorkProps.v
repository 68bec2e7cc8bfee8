(** C74, C101, C102, C103: the job queue, stored results, state shared between runs and the announced budget. *)
From Verif Require Import Spec Base VarModel HgsModel HgsSpec HgsFacts HgsProps WorkModel WorkSpec WorkProofs.
From Coq Require Import QArith.
Local Open Scope nat_scope.

(** ** C74 *)

(** The property asks that after a failing simulation the remaining ones still run and the failure appears in the
    summary.  Instead the queue stops at the first failure and there is no summary at all. *)
Theorem C74_stops_refuted : forall (case : Type) (worker_run : case -> option Q) cases before c after,
  first_failure worker_run cases before c after ->
  q_executed (fst (run_parallel case worker_run cases)) = before ++ [c] /\
  q_ending (fst (run_parallel case worker_run cases)) = TypeErrorOnNone /\
  snd (run_parallel case worker_run cases) = None.
Proof.
  intros case wr cases before c after (-> & Hb & Hc). unfold run_parallel, run_queue.
  destruct (queue_fails wr before c after [] [] Hb Hc) as [E1 E2].
  destruct (before ++ c :: after) as [|y l] eqn:E; [destruct before; discriminate|]. rewrite <- E in *.
  cbn [fst snd]. rewrite E1, E2. auto.
Qed.
Print Assumptions C74_stops_refuted.

(** Missing from the property: everything about runs with a failure.  Without one all cases run, once each and in
    order, and the summary has the total time and no errors. *)
Theorem C74_no_failure_partial : forall (case : Type) (worker_run : case -> option Q) cases,
  cases <> [] -> (forall x, In x cases -> worker_run x <> None) ->
  q_executed (fst (run_parallel case worker_run cases)) = cases /\
  exists sm times, snd (run_parallel case worker_run cases) = Some sm /\ s_errors sm = [] /\
    map worker_run cases = map Some times /\ (s_time sm == fold_right Qplus 0 times)%Q.
Proof.
  intros case wr cases N H. unfold run_parallel, run_queue.
  destruct (queue_done wr cases [] [] H) as (E1 & E2 & E3).
  destruct cases as [|c cs] eqn:E; [congruence|]. rewrite <- E in *. cbn [fst snd]. rewrite E1, E2, E3.
  split; [reflexivity|].
  assert (T : exists times, map wr cases = map Some times).
  { clear - H. induction cases as [|x l IH]; [exists []; reflexivity|].
    destruct (wr x) as [t|] eqn:E; [|exfalso; apply (H x); [left; reflexivity|exact E]].
    destruct IH as (ts & Hts); [intros y Hy; apply H; right; exact Hy|]. exists (t :: ts). cbn. rewrite E, Hts. reflexivity. }
  destruct T as (times & T). exists (log_summary case (map wr cases) cases), times.
  split; [reflexivity|]. split; [apply no_errors; exact H|]. split; [exact T|].
  unfold log_summary. cbn [s_time]. rewrite T. clear.
  assert (forall a, fold_left Qplus (flat_map (fun r => match r with Some t => [t] | None => [] end) (map Some times)) a == a + fold_right Qplus 0 times)%Q as G.
  { induction times as [|t ts IH]; intros a; cbn; [ring|]. rewrite IH. ring. }
  rewrite G. ring.
Qed.
Print Assumptions C74_no_failure_partial.

(** An empty job list ends in an exception too. *)
Theorem C74_empty_refuted : forall (case : Type) (worker_run : case -> option Q),
  q_ending (fst (run_parallel case worker_run [])) = NoElements /\ snd (run_parallel case worker_run []) = None.
Proof. split; reflexivity. Qed.
Print Assumptions C74_empty_refuted.

Definition fails_on (bad : nat) (c : nat) : option Q := if c =? bad then None else Some 2%Q.
Example C74_example :
  first_failure (fails_on 7) [5; 7; 6; 8] [5] 7 [6; 8] /\
  q_executed (fst (run_parallel nat (fails_on 7) [5; 7; 6; 8])) = [5; 7] /\
  (forall x, In x [5; 7; 6; 8] -> fails_on 9 x <> None) /\
  exists sm, snd (run_parallel nat (fails_on 9) [5; 7; 6; 8]) = Some sm /\ (s_time sm == 8)%Q.
Proof.
  split; [|split; [reflexivity|split]].
  - split; [reflexivity|]. split; [|reflexivity]. intros x [<-|[]]. discriminate.
  - intros x [<-|[<-|[<-|[<-|[]]]]]; discriminate.
  - eexists. split; [reflexivity|]. reflexivity.
Qed.

(** ** C101 *)

(** Whatever the driver, the stored fitness lists are those of its individuals, each once per individual. *)
Theorem C101_fitnesses : forall fitnesses d,
  exists xs, (forall x, In x xs <-> member d x) /\
    Forall2 (fun x fs => Forall2 (fun f y => y = f x) fitnesses fs) xs (st_fitnesses (process_results fitnesses d)).
Proof.
  intros fs d. exists (fst (iterate (finalized d))). split; [apply finalized_members|].
  unfold process_results. destruct (iterate (finalized d)) as [xs it]. cbn [fst st_fitnesses]. apply pairs.
Qed.
Print Assumptions C101_fitnesses.

(** For every driver but IMGA the stored population is the driver's and matches the stored fitness lists. *)
Theorem C101_lists_partial : forall fitnesses d, has_no_chain d ->
  matches fitnesses (process_results fitnesses d) /\
  (forall x, In x (contents (st_population (process_results fitnesses d))) <-> member d x) /\
  population_len (process_results fitnesses d) = Some (length (st_fitnesses (process_results fitnesses d))).
Proof.
  intros fs d N.
  assert (E : exists l, finalized d = Sequence l) by (destruct d; [eexists; reflexivity|eexists; reflexivity|destruct N]).
  destruct E as (l & E). pose proof (finalized_members d) as M. unfold process_results, matches, population_len. rewrite E in *.
  cbn in *. split; [apply pairs|]. split; [exact M|]. rewrite map_length. reflexivity.
Qed.
Print Assumptions C101_lists_partial.

(** For IMGA the stored population is an exhausted iterator: reading it gives nothing although there are fitness lists, and
    taking its length, as the statistics do, raises. *)
Theorem C101_imga_refuted : forall fitnesses islands, (exists x, member (Chained islands) x) ->
  contents (st_population (process_results fitnesses (Chained islands))) = [] /\
  st_fitnesses (process_results fitnesses (Chained islands)) <> [] /\
  ~ matches fitnesses (process_results fitnesses (Chained islands)) /\
  population_len (process_results fitnesses (Chained islands)) = None.
Proof.
  intros fs is (x & Hx). apply finalized_members in Hx. unfold process_results, matches, population_len.
  cbn [finalized iterate fst st_population st_fitnesses contents] in *.
  destruct (concat (map (fun i => fst (iterate (finalized i))) is)) as [|y l]; [destruct Hx|].
  cbn [map]. repeat split; try discriminate. intros H. inversion H.
Qed.
Print Assumptions C101_imga_refuted.

Example C101_example :
  let f := [fun v => nth 0 v 0%Z; fun v => (- nth 1 v 0)%Z] in
  process_results f (Merged [[[1; 2]; [3; 4]]; [[5; 6]]]%Z)
  = {| st_population := Sequence [[1; 2]; [3; 4]; [5; 6]]%Z; st_fitnesses := [[1; -2]; [3; -4]; [5; -6]]%Z |} /\
  process_results f (Chained [Listed [[1; 2]; [3; 4]]%Z; Listed [[5; 6]]%Z])
  = {| st_population := OneShot []; st_fitnesses := [[1; -2]; [3; -4]; [5; -6]]%Z |} /\
  member (Chained [Listed [[1; 2]; [3; 4]]%Z; Listed [[5; 6]]%Z]) [5; 6]%Z.
Proof.
  split; [reflexivity|]. split; [reflexivity|]. apply (in_island _ (Listed [[5; 6]]%Z)); [right; left; reflexivity|].
  constructor. left. reflexivity.
Qed.

(** ** C102 *)

(** The property: a run behaves as it would in a process of its own.  Two runs of HGS in one process, the first of
    which is revived once (all its nodes had ripened): the second ends with another population than it has alone. *)
Definition toy_experiment (xs : list Z) : experiment Z :=
  {| x_sampling := fun _ => 0; x_draw := 0%Z; x_population := [[10]; [20]; [30]; [40]]%Z; x_steps := map (fun x => toy_draws (all_by x)) xs |}.
Notation toy_session := (session _ _ toy_new toy_step fst toy_final toy_delegates toy_hv toy_raw (1#1000) (toy_cfg 2)).
Definition tenths : list Q := [1#10; 1#10; 1#10]%Q.
Definition still : list Z := [1; 1; 0; 1; 1; 0; 1; 1; 0; 1; 1; 0; 1]%Z.
Definition slow : list Z := [15; 15; 1; 1]%Z.

Theorem C102_same_process_refuted : exists first second shared alone,
  toy_session tenths [first; second] = Ok shared /\ toy_session tenths [second] = Ok alone /\
  exists s s', nth_error shared 1 = Some s /\ nth_error alone 0 = Some s' /\
    finalized_population _ s <> finalized_population _ s'.
Proof.
  exists (toy_experiment still), (toy_experiment slow). eexists _, _.
  split; [vm_compute; reflexivity|]. split; [vm_compute; reflexivity|]. eexists _, _.
  split; [reflexivity|]. split; [reflexivity|]. vm_compute. discriminate.
Qed.
Print Assumptions C102_same_process_refuted.

Section Session.
  Variables drv draw : Type.
  Variable dnew : nat -> draw -> list vec -> option drv.
  Variable dstep : draw -> drv -> option drv.
  Variable dcost : drv -> Z.
  Variable dfinal : draw -> drv -> option (drv * list vec).
  Variable ddelegates : drv -> option (list vec).
  Variable hv_of : list vec -> Q.
  Variable raw : Z -> Z -> Z -> Z -> Z.
  Variable EPSILON : Q.
  Variable C : config.
  Notation session := (session drv draw dnew dstep dcost dfinal ddelegates hv_of raw EPSILON C).

  (** What is left of the property: a run in a session is the run alone started with ratios that have been halved
      some number of times, at most once per step of the runs before it. *)
  Theorem C102_only_ratios_partial : forall ratios before x after ss,
    session ratios (before ++ x :: after) = Ok ss ->
    exists k ratios' s, nth_error ss (length before) = Some s /\
      k <= fold_right Nat.add 0 (map (fun e => length (x_steps e)) before) /\
      halved k ratios ratios' /\ session ratios' [x] = Ok [s].
  Proof.
    intros ratios before. revert ratios. induction before as [|b before IH]; intros ratios x after ss H;
      cbn [app length] in *; cbn [WorkModel.session] in H.
    - exists 0, ratios. destruct (run_hgs _ _ _ _ _ _ _ _ _ _ _ ratios x) as [[s r']| |] eqn:E; cbn [bind] in H; try discriminate.
      destruct (session r' after) as [ss'| |]; cbn [bind] in H; try discriminate. injection H as <-.
      exists s. split; [reflexivity|]. split; [apply Nat.le_refl|]. split; [apply halved_refl|].
      cbn [WorkModel.session]. rewrite E. reflexivity.
    - destruct (run_hgs _ _ _ _ _ _ _ _ _ _ _ ratios b) as [[s0 r']| |] eqn:E; cbn [bind] in H; try discriminate.
      destruct (session r' (before ++ x :: after)) as [ss'| |] eqn:E'; cbn [bind] in H; try discriminate. injection H as <-.
      destruct (IH r' x after ss' E') as (k & r'' & s & Hs & Hk & Hh & Hx).
      unfold run_hgs in E. destruct (hgs_init _ _ _ _ _ _ _ _) as [t0| |] eqn:Ei; cbn [bind] in E; try discriminate.
      destruct (hgs_run _ _ _ _ _ _ _ _ _ _ _ _ t0) as [t| |] eqn:Er; cbn [bind] in E; try discriminate.
      injection E as <- <-.
      assert (R : reachable dnew dstep dcost dfinal ddelegates hv_of raw EPSILON C t0).
      { exists (x_sampling b), (x_draw b), ratios, (x_population b), [], t0. split; [exact Ei|reflexivity]. }
      destruct (steps_halve _ _ _ _ _ _ _ _ _ _ _ _ _ _ R Er) as (j & Hj & Hv).
      assert (M : min_progress_ratio t0 = ratios).
      { clear - Ei. unfold hgs_init in Ei.
        repeat match type of Ei with bind ?e _ = _ => destruct e; cbn [bind] in Ei; try discriminate end.
        injection Ei as <-. reflexivity. }
      rewrite M in Hv. exists (j + k), r'', s. split; [exact Hs|]. split; [cbn; lia|].
      split; [eapply halved_trans; eassumption|exact Hx].
  Qed.

  (** In particular nothing changes if no earlier run was revived. *)
  Theorem C102_no_revival_partial : forall ratios before x after ss,
    session ratios (before ++ x :: after) = Ok ss ->
    (forall s, In s (firstn (length before) ss) -> min_progress_ratio s = ratios) ->
    exists s, nth_error ss (length before) = Some s /\ session ratios [x] = Ok [s].
  Proof.
    intros ratios before. induction before as [|b before IH]; intros x after ss H N; cbn [app length] in *; cbn [WorkModel.session] in H.
    - destruct (run_hgs _ _ _ _ _ _ _ _ _ _ _ ratios x) as [[s r']| |] eqn:E; cbn [bind] in H; try discriminate.
      destruct (session r' after) as [ss'| |]; cbn [bind] in H; try discriminate. injection H as <-.
      exists s. split; [reflexivity|]. cbn [WorkModel.session]. rewrite E. reflexivity.
    - destruct (run_hgs _ _ _ _ _ _ _ _ _ _ _ ratios b) as [[s0 r']| |] eqn:E; cbn [bind] in H; try discriminate.
      destruct (session r' (before ++ x :: after)) as [ss'| |] eqn:E'; cbn [bind] in H; try discriminate. injection H as <-.
      cbn [firstn] in N.
      assert (r' = ratios) as ->.
      { rewrite <- (N s0 (or_introl eq_refl)). clear - E. unfold run_hgs in E.
        repeat match type of E with bind ?e _ = _ => destruct e; cbn [bind] in E; try discriminate end.
        injection E as <- <-. reflexivity. }
      apply (IH x after ss' E'). intros s Hs. apply N. right. exact Hs.
  Qed.
End Session.
Print Assumptions C102_only_ratios_partial.
Print Assumptions C102_no_revival_partial.

Example C102_example : exists ss s, toy_session tenths [toy_experiment slow; toy_experiment still; toy_experiment slow] = Ok ss /\
  nth_error ss 0 = Some s /\ min_progress_ratio s = tenths /\
  map (fun s => hd 0%Q (min_progress_ratio s)) ss = [1#10; 1#20; 1#20]%Q /\ map (fun s => length (nodes s)) ss = [4; 13; 1].
Proof.
  eexists _, _. split; [vm_compute; reflexivity|]. split; [reflexivity|]. repeat split; reflexivity.
Qed.

(** ** C103 *)

(** The property asks that every driver inside knows the largest budget; none does. *)
Theorem C103_budget_not_spread_refuted : forall p b,
  known (announce b (construct p)) = Some b /\
  forall e, within (announce b (construct p)) e -> known e = None /\ forall cost, omopso_progress cost e = None.
Proof.
  intros p b. split; [reflexivity|].
  assert (G : forall p e, within (construct p) e -> known e = None).
  { clear. assert (K : forall q, known (construct q) = None) by (intros []; reflexivity).
    assert (Rp : forall q n e, (forall e, within (construct q) e -> known e = None) -> In e (repeat (construct q) n) ->
      known e = None /\ forall x, within e x -> known x = None).
    { intros q n e H I. apply repeat_spec in I. subst e. auto. }
    induction p as [|n q IH|n q IH]; intros e W; cbn [construct spread] in W.
    - inversion W; subst; cbn in *; tauto.
    - inversion W as [? ? I|? ? ? I W']; subst; cbn [inside] in I; destruct (Rp q n _ IH I); auto.
    - inversion W as [? ? I|? ? ? I W']; subst; cbn [inside] in I; destruct I as [<-|[]]; [reflexivity|].
      inversion W' as [? ? I|? ? ? I W'']; subst; cbn [inside] in I; destruct (Rp q n _ IH I); auto. }
  intros e W. assert (W' : within (construct p) e).
  { inversion W as [? ? I|? x ? I W']; subst; cbn [announce inside] in I; [apply direct|eapply deeper]; eassumption. }
  pose proof (G p e W') as E. split; [exact E|]. intros c. unfold omopso_progress. rewrite E. reflexivity.
Qed.
Print Assumptions C103_budget_not_spread_refuted.

(** What does work: the driver at the top knows the budget, and the progress OMOPSO reads there is the
    fraction of the budget spent, at most 1. *)
Theorem C103_top_level_progress : forall p b cost, (0 < b)%Q -> (0 <= cost)%Q ->
  exists q, omopso_progress cost (announce b (construct p)) = Some q /\ (0 <= q <= 1)%Q /\
    ((cost <= b)%Q -> (q == cost / b)%Q) /\ ((b <= cost)%Q -> (q == 1)%Q).
Proof.
  intros p b cost Hb Hc. unfold omopso_progress. change (known (announce b (construct p))) with (Some b). cbn match.
  destruct (Qeq_bool b 0) eqn:E; [apply Qeq_bool_iff in E; rewrite E in Hb; discriminate|].
  eexists. split; [reflexivity|].
  assert (P : (0 <= cost / b)%Q) by (apply Qle_shift_div_l; [exact Hb|]; rewrite Qmult_0_l; exact Hc).
  destruct (Qle_bool 1 (cost / b)) eqn:L.
  - apply Qle_bool_iff in L. split; [split; discriminate|]. split; [|reflexivity]. intros H.
    apply Qle_antisym; [exact L|]. apply Qle_shift_div_r; [exact Hb|]. rewrite Qmult_1_l. exact H.
  - assert (L' : (cost / b < 1)%Q). { apply Qnot_le_lt. intros X. apply Qle_bool_iff in X. congruence. }
    split; [split; [exact P|apply Qlt_le_weak, L']|]. split; [reflexivity|]. intros H. exfalso.
    apply (Qlt_not_le _ _ L'). apply Qle_shift_div_l; [exact Hb|]. rewrite Qmult_1_l. exact H.
Qed.
Print Assumptions C103_top_level_progress.

(** Three islands, or HGS with two nodes, on a plain algorithm: there are drivers inside. *)
Example C103_example :
  within (announce 500 (construct (Imga 3 Plain))) (Driver None []) /\
  within (announce 500 (construct (Hgs 2 Plain))) (Driver None []) /\
  omopso_progress 200 (announce 500 (construct Plain)) = Some (200 / 500)%Q.
Proof.
  split; [apply direct; left; reflexivity|]. split; [|reflexivity].
  eapply deeper; [left; reflexivity|]. apply direct. left. reflexivity.
Qed.
