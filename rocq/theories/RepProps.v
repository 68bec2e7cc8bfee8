(** C146, C147: what the job queue reports and how it treats its process. *)
Require Import String List ZArith QArith Bool Lia Sorted.
From Verif Require Import PyStr RepModel RepSpec RepProofs.
Import ListNotations.
Open Scope Z_scope.

(** C146 - without the option no simulation changes the niceness.  With it the increments add up: simulation number [k]
    (from 0) runs [k + 1] increments above the start, up to 19. *)
Theorem C146_renice_partial : forall jobs start k x, 0 <= start <= 19 ->
  (nth_error (niceness start None jobs) k = Some x -> x = start) /\
  forall increment, 0 <= increment ->
    nth_error (niceness start (Some increment) jobs) k = Some x ->
    x = Z.min 19 (start + increment * (Z.of_nat k + 1)).
Proof.
  intros jobs start k x Hs. split.
  - intro H. apply nth_error_In in H. now apply niceness_none in H.
  - intros inc Hi H. now apply niceness_from in H.
Qed.
Print Assumptions C146_renice_partial.

(** So the simulations of one queue do not run at the priority that was asked for, nor at equal priorities. *)
Theorem C146_same_priority_refuted : exists increment,
  niceness 0 (Some increment) 5 = [5; 10; 15; 19; 19].
Proof. exists 5. reflexivity. Qed.
Print Assumptions C146_same_priority_refuted.

(** C147 - the report after simulation number [i] (from 0) counts the [i] before it but not the one just finished, so the
    last report is below 100 percent, and in a queue of simulations of equal length [t] the remaining time that is
    announced is (i+1)(n-i)/i times [t] where (n-i-1) times [t] remains. *)
Theorem C147_progress_partial : forall n i t, (0 < i < n)%nat ->
  (reported_share i n * inject_Z (Z.of_nat n) == inject_Z (Z.of_nat i))%Q /\
  (reported_share i n < 1)%Q /\
  exists d, time_to_delivery i n (inject_Z (Z.of_nat i + 1) * t) = Some d /\
    (d * inject_Z (Z.of_nat i) == inject_Z (Z.of_nat i + 1) * inject_Z (Z.of_nat n - Z.of_nat i) * t)%Q.
Proof.
  intros n i t H. assert (Ni : ~ (inject_Z (Z.of_nat i) == 0)%Q) by (unfold Qeq; cbn; lia).
  assert (Nn : ~ (inject_Z (Z.of_nat n) == 0)%Q) by (unfold Qeq; cbn; lia).
  unfold reported_share, time_to_delivery. split; [field; exact Nn|]. split.
  - apply Qlt_shift_div_r; [unfold Qlt; cbn; lia|]. rewrite Qmult_1_l. rewrite <- Zlt_Qlt. lia.
  - destruct (Nat.eqb_spec i 0) as [->|_]; [lia|]. eexists. split; [reflexivity|]. unfold reported_share.
    unfold Z.sub. rewrite !inject_Z_plus, inject_Z_opp. field. split; assumption.
Qed.
Print Assumptions C147_progress_partial.

(** The share that is reported is never the share that is done. *)
Theorem C147_share_done_refuted : forall n i, (i < n)%nat ->
  ~ (reported_share i n * inject_Z (Z.of_nat n) == inject_Z (Z.of_nat i + 1))%Q.
Proof.
  intros n i H. unfold reported_share.
  assert (E : (inject_Z (Z.of_nat i) / inject_Z (Z.of_nat n) * inject_Z (Z.of_nat n) == inject_Z (Z.of_nat i))%Q).
  { field. unfold Qeq; cbn; lia. }
  rewrite E. unfold Qeq; cbn. lia.
Qed.
Print Assumptions C147_share_done_refuted.

(** The remaining time is printed right exactly if less than an hour remains, apart from whole days. *)
Theorem C147_remaining_time_partial : forall t, 0 <= t -> (reads_as (printed_time t) t <-> t mod 86400 < 3600).
Proof. exact printed_ok. Qed.
Print Assumptions C147_remaining_time_partial.

Theorem C147_remaining_time_refuted : printed_time 3661 = (1, 61, 1).
Proof. reflexivity. Qed.

(** The table of running times lists every configuration of the queue once, longest first, with the sum of its times
    divided by the number of repetitions. *)
Theorem C147_running_times : forall repetitions runs, let table := running_times repetitions runs in
  NoDup (map fst table) /\
  (forall c, In c (map fst table) <-> In c (map fst runs)) /\
  (forall c mean, In (c, mean) table -> (mean == sum (times_of c runs) / inject_Z (Z.pos repetitions))%Q) /\
  StronglySorted (fun a b => (snd b <= snd a)%Q) table.
Proof. exact running_times_ok. Qed.
Print Assumptions C147_running_times.

Example C147_example :
  time_to_delivery 0 4 10 = None /\
  (exists d, time_to_delivery 1 4 20 = Some d /\ (d == 60)%Q) /\
  reads_as (printed_time 125) 125 /\
  map (fun e => (fst e, Qred (snd e)))
    (running_times 2 [(("ZDT1", "NSGAII")%string, 3%Q); (("ZDT1", "SPEA2")%string, 9%Q); (("ZDT1", "NSGAII")%string, 4%Q); (("ZDT1", "SPEA2")%string, 1%Q)]) =
  [(("ZDT1", "SPEA2")%string, 5%Q); (("ZDT1", "NSGAII")%string, (7 # 2)%Q)].
Proof.
  split; [reflexivity|]. split; [eexists; split; [reflexivity|reflexivity]|]. split; [|vm_compute; reflexivity].
  vm_compute. intuition discriminate.
Qed.
