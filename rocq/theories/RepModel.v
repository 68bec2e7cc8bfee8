(** What the job queue reports and does to its process: simulation/run_parallel.py:55-112, simulation/worker.py:33-37.
    Times are exact rationals; the text around the numbers is left out. *)
Require Import String List ZArith QArith Bool.
From Verif Require Import PyStr.
Import ListNotations.
Open Scope Z_scope.

(** worker.py:37 [os.nice(increment)] on Linux, for increments that are allowed: the new niceness. *)
Definition nice (level increment : Z) : Z := Z.max (-20) (Z.min 19 (level + increment)).

(** worker.py:33-37, run_parallel.py:44-50: the niceness at which each of [jobs] simulations runs.  All of them run in
    the process of the queue. *)
Fixpoint niceness (level : Z) (renice : option Z) (jobs : nat) : list Z :=
  match jobs with
  | O => []
  | S jobs' =>
      let level' := match renice with Some increment => nice level increment | None => level end in
      level' :: niceness level' renice jobs'
  end.

(** run_parallel.py:58: the share of the queue that is reported done, for the simulation with number [i] (from 0,
    run_parallel.py:44-45) out of [n]. *)
Definition reported_share (i n : nat) : Q := inject_Z (Z.of_nat i) / inject_Z (Z.of_nat n).

(** run_parallel.py:56-61: the time to delivery in seconds, [elapsed] after the start; [None] for the
    ZeroDivisionError (70). *)
Definition time_to_delivery (i n : nat) (elapsed : Q) : option Q :=
  if (i =? 0)%nat then None else Some (elapsed / reported_share i n - elapsed)%Q.

(** run_parallel.py:65-67: hours, minutes and seconds as printed, of a timedelta of [t] whole seconds (a timedelta has
    days and seconds below 86400). *)
Definition printed_time (t : Z) : Z * Z * Z :=
  let days := t / 86400 in
  let seconds := t mod 86400 in
  (days * 24 + seconds / 3600, seconds / 60, seconds mod 60).

(** run_parallel.py:95-98: adding to an entry of the defaultdict. *)
Fixpoint add_time (config : string * string) (t : Q) (table : list (string * string * Q)) : list (string * string * Q) :=
  match table with
  | [] => [(config, t)]
  | (c, u) :: rest =>
      if (String.eqb (fst c) (fst config) && String.eqb (snd c) (snd config))%bool then (c, Qred (u + t)) :: rest
      else (c, u) :: add_time config t rest
  end.

(** run_parallel.py:102-104: the order of sorted with reverse=True on the times; equal times keep their order. *)
Definition longer_first (a b : string * string * Q) : bool := Qle_bool (snd b) (snd a).

(** run_parallel.py:95-112: the table of running times: configurations with their average over the [-N] repetitions.
    [runs] are the configurations and processor times of the completed simulations, in order. *)
Definition running_times (repetitions : positive) (runs : list (string * string * Q)) : list (string * string * Q) :=
  map (fun e => (fst e, (snd e / inject_Z (Z.pos repetitions))%Q))
    (sort_by longer_first (fold_left (fun table r => add_time (fst r) (snd r) table) runs [])).
