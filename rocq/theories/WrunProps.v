(** Property theorems C155: a simulation's driver is shut down whatever happens, and a failing simulation is contained. *)
From Verif Require Import WrunModel WrunSpec WrunProofs.
Local Open Scope nat_scope.

(** Whatever the simulation does: its driver is shut down as often as it was made, at most once, and after everything
    else; [tr] is everything that run() does. *)
Theorem C155_shut_down_once :
  forall (R : Type) (k : nat) (j : job R) (tr : list event) (res : option (R * Z * nat) + exn),
    run R k j = (tr, res) ->
    times (is_shut k) tr = times (is_made k) tr /\ times (is_made k) tr <= 1 /\
    (In (Made k) tr -> exists pre, tr = pre ++ [Shut k] /\ In (Made k) pre /\ ~ In (Shut k) pre).
Proof. intros R k j tr res E. pose proof (run_shut R k j) as (H1 & H2 & H3). rewrite E in *. auto. Qed.
Print Assumptions C155_shut_down_once.

(** run() returns the results with the processor time and the number of the simulation exactly when nothing goes wrong. *)
Theorem C155_result :
  forall (R : Type) (k : nat) (j : job R) (x : R * Z * nat),
    snd (run R k j) = inl (Some x) <-> exists r, succeeds j r /\ x = (r, spent j, k).
Proof. exact run_some. Qed.
Print Assumptions C155_result.

(** Exceptions raised while the driver is prepared, made or run do not get out. *)
Theorem C155_contained :
  forall (R : Type) (k : nat) (j : job R),
    contained j ->
    (exists r, succeeds j r /\ snd (run R k j) = inl (Some (r, spent j, k))) \/ snd (run R k j) = inl None.
Proof.
  intros R k j H. destruct (run_contained R k j H) as ([x|] & E); [left | right; exact E].
  pose proof E as E'. apply run_some in E'. destruct E' as (r & Hr & ->). eauto.
Qed.
Print Assumptions C155_contained.

(** An interruption (KeyboardInterrupt, SystemExit) of a running driver does get out, after the driver is shut down. *)
Theorem C155_interruption :
  forall (R : Type) (k n : nat) (j : job R),
    j_renice _ j = None \/ j_nice _ j = None -> j_seed _ j = None -> j_prepare _ j = None -> j_make _ j = None ->
    j_run _ j = inr (Fatal n) -> j_shutdown _ j = None ->
    snd (run R k j) = inr (Fatal n) /\ exists pre, fst (run R k j) = pre ++ [Made k; Shut k].
Proof.
  intros R k n [rn nc sd pr ac mk rr cl sh]. cbn. intros Hn -> -> -> -> ->.
  destruct rn as [z|]; [destruct Hn as [Hn| ->]; [discriminate|] |]; destruct ac; (split; [reflexivity|]); cbn;
    match goal with |- exists pre, ?l = _ => let l' := eval cbn in (removelast (removelast l)) in exists l'; reflexivity end.
Qed.
Print Assumptions C155_interruption.

(** The whole queue, also when it breaks off: each driver is shut down as often as it was made. *)
Theorem C155_every_driver_of_the_queue :
  forall (R : Type) (jobs : list (job R)) (k : nat),
    times (is_shut k) (fst (run_parallel R jobs)) = times (is_made k) (fst (run_parallel R jobs)) /\
    times (is_made k) (fst (run_parallel R jobs)) <= 1.
Proof. exact parallel_shut. Qed.
Print Assumptions C155_every_driver_of_the_queue.

(** The actor system is shut down exactly if there are simulations and all of them succeed; all results are reported
    then.  Missing: the other runs, in which it is left running (below). *)
Theorem C155_actor_system_partial :
  forall (R : Type) (jobs : list (job R)),
    (In SystemDown (fst (run_parallel R jobs)) <-> jobs <> [] /\ Forall (fun j => exists r, succeeds j r) jobs) /\
    (forall rs, snd (run_parallel R jobs) = inl rs ->
       In SystemDown (fst (run_parallel R jobs)) /\ length rs = length jobs /\
       forall n j, nth_error jobs n = Some j -> exists r, succeeds j r /\ nth_error rs n = Some (r, spent j, n)).
Proof. exact parallel_system. Qed.
Print Assumptions C155_actor_system_partial.

(** One simulation whose driver raises: the exception is contained, but the actor system (in which distributed HGS runs
    in processes of their own) is never shut down, nor is the next simulation begun. *)
Theorem C155_actor_system_left_running_refuted :
  exists (jobs : list (job nat)),
    length jobs = 2 /\ Forall contained jobs /\
    In SystemUp (fst (run_parallel nat jobs)) /\ ~ In SystemDown (fst (run_parallel nat jobs)) /\
    (exists j, nth_error jobs 1 = Some j /\ exists r, succeeds j r) /\ ~ In (Seeded 1) (fst (run_parallel nat jobs)).
Proof.
  set (good := {| j_renice := None; j_nice := None; j_seed := None; j_prepare := None; j_actor := true; j_make := None;
                  j_run := inl 7; j_clock := (0, 5)%Z; j_shutdown := None |} : job nat).
  set (bad := {| j_renice := None; j_nice := None; j_seed := None; j_prepare := None; j_actor := true; j_make := None;
                 j_run := inr (Ordinary 3); j_clock := (0, 5)%Z; j_shutdown := None |} : job nat).
  exists [bad; good]. split; [reflexivity|]. split.
  { repeat constructor; unfold contained, ordinary; cbn; repeat split; auto; intros; try discriminate; congruence. }
  cbn. split; [auto|]. split; [intuition discriminate|]. split; [|intuition discriminate].
  exists good. split; [reflexivity|]. exists 7. unfold succeeds. cbn. repeat split; auto.
Qed.
Print Assumptions C155_actor_system_left_running_refuted.

(** A constructor that raises after it has created its actor: nobody tells the actor to exit. *)
Theorem C155_actor_left_refuted :
  exists (j : job nat),
    contained j /\ In (Actor 0) (fst (run nat 0 j)) /\ ~ In (Shut 0) (fst (run nat 0 j)) /\ snd (run nat 0 j) = inl None.
Proof.
  exists {| j_renice := None; j_nice := None; j_seed := None; j_prepare := None; j_actor := true; j_make := Some (Ordinary 3);
            j_run := inl 7; j_clock := (0, 5)%Z; j_shutdown := None |}.
  split; [unfold contained, ordinary; cbn; repeat split; auto; intros; try discriminate; congruence|].
  cbn. split; [auto|]. split; [intuition discriminate | reflexivity].
Qed.
Print Assumptions C155_actor_left_refuted.

Example C155_two_simulations :
  let j a b := {| j_renice := Some 10%Z; j_nice := None; j_seed := None; j_prepare := None; j_actor := a; j_make := None;
                  j_run := b; j_clock := (3, 8)%Z; j_shutdown := None |} : job nat in
  run_parallel nat [j false (inl 7); j true (inl 9)] =
    ([SystemUp; Reniced 0 10; Seeded 0; Made 0; Ran 0; Shut 0; Reported 0;
      Reniced 1 10; Seeded 1; Actor 1; Made 1; Ran 1; Shut 1; Reported 1; Summary; ExecutorDown; SystemDown],
     inl [(7, 5%Z, 0); (9, 5%Z, 1)]) /\
  run nat 4 (j true (inr NotViable)) = ([Reniced 4 10; Seeded 4; Actor 4; Made 4; Shut 4], inl None) /\
  run nat 4 (j true (inr (Fatal 2))) = ([Reniced 4 10; Seeded 4; Actor 4; Made 4; Shut 4], inr (Fatal 2)).
Proof. repeat split. Qed.
