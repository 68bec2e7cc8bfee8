(** C141: timed runs with the clock in double precision. *)
From Coq Require Import Reals List Lra Lia ZArith.
From Flocq Require Import Core.
From Verif Require Import Spec RunModel RunSpec RndIeee FTimeModel FTimeSpec FTimeProofs.
Import ListNotations.
Local Open Scope R_scope.

(** C141 - the float arithmetic of the loop neither invents, skips nor repeats a slot: a completed run performs
    [n] steps, the n-th being the first after which the clock shows the timeout or more, and delivers nothing (after a
    single step) or exactly the slots step, 2*step, ... up to the timeout.  Any doubles may be read from the clock,
    also decreasing ones, as long as no sum reaches 2^52 seconds. *)
Theorem C141_slots_in_doubles :
  forall (S : Type) (step : S -> S) (cost : S -> Z) tstep timeout, (0 < tstep < 2 ^ 53)%Z ->
  forall readings d es d',
    (forall j, (j <= length readings)%nat -> Rabs (clock_after readings j) < IZR (2 ^ 52)) ->
    f_time_run step cost tstep timeout ieee readings d = Some (es, d') ->
    exists n, (n <= length readings)%nat /\
      d' = {| d_state := after step n (d_state d); d_step_no := (d_step_no d + n)%nat |} /\
      IZR timeout <= clock_after readings n /\
      (forall j, (j < n)%nat -> clock_after readings j < IZR timeout) /\
      map (@e_time S) es =
        if (n =? 1)%nat then [] else map (fun k => (k * tstep)%Z) (zrange 1 (timeout / tstep)).
Proof. intros S step cost tstep timeout [H1 H2]. exact (f_slots step cost tstep timeout H1 H2). Qed.
Print Assumptions C141_slots_in_doubles.

(** Each slot carries the progress of the last step that ended before the slot's time, or of the first step. *)
Theorem C141_messages_in_doubles :
  forall (S : Type) (step : S -> S) (cost : S -> Z) tstep timeout, (0 < tstep < 2 ^ 53)%Z ->
  forall readings s k0 es d',
    (forall j, (j <= length readings)%nat -> Rabs (clock_after readings j) < IZR (2 ^ 52)) ->
    f_time_run step cost tstep timeout ieee readings {| d_state := s; d_step_no := k0 |} = Some (es, d') ->
    Forall (fun em => exists k,
      e_msg em = {| p_step_no := (k0 + k)%nat; p_cost := cost (after step (Datatypes.S k) s) |} /\
      (Datatypes.S k < length readings)%nat /\
      IZR (e_time em) <= clock_after readings (Datatypes.S (Datatypes.S k)) /\
      (k = 0%nat \/ clock_after readings (Datatypes.S k) < IZR (e_time em)) /\
      e_state em = after step (Datatypes.S (Datatypes.S k)) s) es.
Proof. intros S step cost tstep timeout [H1 H2]. exact (f_messages step cost tstep timeout H1 H2). Qed.
Print Assumptions C141_messages_in_doubles.

Theorem C141_terminates_in_doubles :
  forall (S : Type) (step : S -> S) (cost : S -> Z) tstep timeout, (0 < tstep < 2 ^ 53)%Z ->
  forall readings n d,
    (forall j, (j <= length readings)%nat -> Rabs (clock_after readings j) < IZR (2 ^ 52)) ->
    (n <= length readings)%nat -> IZR timeout <= clock_after readings n ->
    exists es d', f_time_run step cost tstep timeout ieee readings d = Some (es, d').
Proof. intros S step cost tstep timeout [H1 H2]. exact (f_terminates step cost tstep timeout H1 H2). Qed.
Print Assumptions C141_terminates_in_doubles.

(** No time is lost to rounding: with the readings of a clock that is not set back, any number of steps, the sum of
    doubles is the time that has passed, so a timed run ends with the first step after which that reaches the timeout. *)
Theorem C141_no_time_lost :
  forall readings, plausible_readings readings -> never_set_back (IZR (2 ^ 30)) readings ->
  (forall j, clock_after readings j = true_time_after readings j) /\
  (forall j, (j <= length readings)%nat -> Rabs (clock_after readings j) < IZR (2 ^ 52)) /\
  forall (S : Type) (step : S -> S) (cost : S -> Z) tstep timeout, (0 < tstep < 2 ^ 53)%Z ->
  forall d es d',
    f_time_run step cost tstep timeout ieee readings d = Some (es, d') ->
    exists n, (n <= length readings)%nat /\
      d' = {| d_state := after step n (d_state d); d_step_no := (d_step_no d + n)%nat |} /\
      IZR timeout <= true_time_after readings n /\
      (forall j, (j < n)%nat -> true_time_after readings j < IZR timeout) /\
      map (@e_time S) es =
        if (n =? 1)%nat then [] else map (fun k => (k * tstep)%Z) (zrange 1 (timeout / tstep)).
Proof.
  intros readings Hp Hn. assert (E : forall j, clock_after readings j = true_time_after readings j) by (intro j; apply no_time_lost; assumption).
  split; [exact E|]. split; [apply plausible_bounded; assumption|].
  intros S step cost tstep timeout [H1 H2] d es d' H.
  destruct (f_slots step cost tstep timeout H1 H2 readings d es d' (plausible_bounded _ Hp Hn) H) as (n & A & B & C & D & F).
  exists n. repeat (split; [assumption|]). split; [rewrite <- E; exact C|]. split; [|exact F].
  intros j J. rewrite <- E. apply D, J.
Qed.
Print Assumptions C141_no_time_lost.

(** Four steps on 2020-09-13, of 4, 12.5, 9.25 and 30 seconds: slots every 10 seconds up to 35. *)
Definition ex_readings : list (R * R) :=
  [ (IZR 1600000000, IZR 1600000004); (IZR 1600000004, IZR 3200000033 / 2);
    (IZR 3200000033 / 2, IZR 6400000103 / 4); (IZR 6400000103 / 4, IZR 6400000223 / 4) ].

Lemma ex_reading_double m e : (Z.abs m < 2 ^ 53)%Z -> (0 <= e <= 22)%Z -> is_double (IZR m / IZR (2 ^ e)).
Proof.
  intros Hm He. replace (IZR m / IZR (2 ^ e)) with (IZR m * bpow radix2 (- e)).
  - apply scaled_double; [exact Hm|lia].
  - rewrite bpow_opp. change (IZR (2 ^ e)) with (IZR (radix2 ^ e)). rewrite IZR_Zpower by lia. reflexivity.
Qed.

Example C141_example_readings : plausible_readings ex_readings /\ never_set_back (IZR (2 ^ 30)) ex_readings.
Proof.
  assert (D0 : forall m, (Z.abs m < 2 ^ 53)%Z -> is_double (IZR m)) by (intros; apply int_double; assumption).
  assert (D1 : is_double (IZR 3200000033 / 2)) by (apply (ex_reading_double _ 1); lia).
  assert (D2 : is_double (IZR 6400000103 / 4)) by (apply (ex_reading_double _ 2); lia).
  assert (D3 : is_double (IZR 6400000223 / 4)) by (apply (ex_reading_double _ 2); lia).
  split.
  - unfold plausible_readings, ex_readings. repeat constructor; cbn [fst snd]; try assumption; try (apply D0; lia); cbn; lra.
  - cbn [never_set_back ex_readings fst snd]. repeat split; cbn; lra.
Qed.

Example C141_example_run :
  exists es d', f_time_run (fun n => Datatypes.S n) Z.of_nat 10 35 ieee ex_readings {| d_state := 0%nat; d_step_no := 0 |} = Some (es, d') /\
    d_state d' = 4%nat /\ map (@e_time nat) es = [10; 20; 30]%Z.
Proof.
  destruct C141_example_readings as [Hp Hn].
  destruct (C141_no_time_lost _ Hp Hn) as (Ex & Bd & Run).
  destruct (C141_terminates_in_doubles nat (fun n => Datatypes.S n) Z.of_nat 10 35 ltac:(lia) ex_readings 4
    {| d_state := 0%nat; d_step_no := 0 |} Bd ltac:(cbn; lia)) as (es & d' & E).
  { rewrite Ex. unfold true_time_after, ex_readings. cbn [firstn fold_left fst snd]. lra. }
  exists es, d'. split; [exact E|].
  destruct (Run _ _ _ 10%Z 35%Z ltac:(lia) _ _ _ E) as (n & Hn4 & -> & Ht & Hj & Hes).
  assert (n4 : n = 4%nat).
  { cbn [length ex_readings] in Hn4. destruct n as [|[|[|[|[|n]]]]]; [..|reflexivity|lia]; exfalso;
      unfold true_time_after, ex_readings in Ht; cbn [firstn fold_left fst snd] in Ht; lra. }
  subst n. split; [reflexivity|]. rewrite Hes. reflexivity.
Qed.
