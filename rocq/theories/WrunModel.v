(** One simulation from start to end, with all the ways it can fail, and what surrounds the queue of
    simulations: simulation/worker.py:25-80, simulation/timing.py:6-30, simulation/run_parallel.py:20-53,
    algorithms/HGS/distributed/DistributedHGS.py:89-100.
    An effect is an event of a trace.  Log lines are left out, except that [log_time] reads the clock. *)
From Coq Require Export List ZArith Bool Lia.
Export ListNotations.
Local Open Scope Z_scope.

(** Python's exceptions: NotViableConfiguration (simulation/run_config.py:34-35), anything else derived from Exception,
    and what is derived from BaseException only (KeyboardInterrupt, SystemExit). *)
Inductive exn := NotViable | Ordinary (n : nat) | Fatal (n : nat).

Section Worker.
  Variable R : Type.

  Inductive event :=
  | Reniced (k : nat) (by_ : Z)        (* worker.py:37 *)
  | Seeded (k : nat)                   (* worker.py:39 *)
  | Actor (k : nat)                    (* DistributedHGS.py:89: an actor was created for driver k *)
  | Made (k : nat)                     (* worker.py:47-48 *)
  | Ran (k : nat)                      (* worker.py:60: run_driver came to its end *)
  | Shut (k : nat)                     (* worker.py:79: driver.shutdown() was called *)
  | Reported (k : nat)                 (* run_parallel.py:41-42 *)
  | SystemUp | SystemDown              (* run_parallel.py:36, 53 *)
  | Summary | ExecutorDown.            (* run_parallel.py:51-52 *)

  (** What the environment does to one simulation.  [None] = the call returns. *)
  Record job := {
    j_renice : option Z;               (* -r on the command line (worker.py:33), None: not given *)
    j_nice : option exn;               (* os.nice: PermissionError for negative values *)
    j_seed : option exn;               (* worker.py:90-103 *)
    j_prepare : option exn;            (* factory.prepare *)
    j_actor : bool;                    (* the driver's constructor creates an actor (distributed HGS) *)
    j_make : option exn;               (* the driver's constructor raises, after that *)
    j_run : R + exn;                   (* run_driver *)
    j_clock : Z * Z;                   (* time.process_time() before and after *)
    j_shutdown : option exn            (* driver.shutdown() *)
  }.

  (** What a call does: its effects, and its value or its exception. *)
  Definition did (T : Type) : Type := (list event * (T + exn))%type.

  Definition ret {T} (x : T) : did T := ([], inl x).
  Definition effect (e : event) (r : option exn) : did unit :=
    match r with None => ([e], inl tt) | Some x => ([], inr x) end.
  Definition bind {T U} (m : did T) (f : T -> did U) : did U :=
    match snd m with
    | inl x => (fst m ++ fst (f x), snd (f x))
    | inr e => (fst m, inr e)
    end.

  (** timing.py:6-11, 22-30: process_time inside log_time.  The exception of the body is thrown into both generators at
      their yield, which do not catch it: nothing is appended to [out]. *)
  Definition log_time {T} (clock : Z * Z) (body : did T) (out : list Z) : did (T * list Z) :=
    bind body (fun x => ret (x, out ++ [snd clock - fst clock])).

  (** worker.py:42-62, the try block up to where [driver] is set. *)
  Definition prepare_driver (k : nat) (j : job) : did unit :=
    match j_prepare j with
    | Some e => ([], inr e)
    | None =>
        bind (if j_actor j then ([Actor k], inl tt) else ret tt) (fun _ => effect (Made k) (j_make j))
    end.

  (** worker.py:49-62: the rest of the try block. *)
  Definition process (k : nat) (j : job) : did (option (R * Z * nat)) :=
    bind (log_time (j_clock j) (match j_run j with inl r => ([Ran k], inl r) | inr e => ([], inr e) end) [])
         (fun '(r, out) => ret (Some (r, last out 0, k))).

  (** worker.py:64-77: NotViableConfiguration and Exception are logged, after which run() returns None; the rest is not
      caught. *)
  Definition handled (r : option (R * Z * nat) + exn) : option (R * Z * nat) + exn :=
    match r with
    | inr (Fatal n) => inr (Fatal n)
    | inr _ => inl None
    | inl x => inl x
    end.

  (** worker.py:77-80, finally: the value or the exception so far is kept unless shutdown raises. *)
  Definition finally (k : nat) (j : job) (made : bool) (r : option (R * Z * nat) + exn) : did (option (R * Z * nat)) :=
    if made then
      ([Shut k], match j_shutdown j with Some e => inr e | None => r end)
    else ([], r).

  (** worker.py:41-80. *)
  Definition guarded (k : nat) (j : job) : did (option (R * Z * nat)) :=
    let '(ev1, r1) := prepare_driver k j in
    match r1 with
    | inr e => let '(ev2, r2) := finally k j false (handled (inr e)) in (ev1 ++ ev2, r2)
    | inl _ =>
        let '(ev2, r2) := process k j in
        let '(ev3, r3) := finally k j true (handled r2) in
        (ev1 ++ ev2 ++ ev3, r3)
    end.

  (** worker.py:25-80 [SimulationWorker.run]. *)
  Definition run (k : nat) (j : job) : did (option (R * Z * nat)) :=
    bind (match j_renice j with Some z => effect (Reniced k z) (j_nice j) | None => ret tt end) (fun _ =>
    bind (effect (Seeded k) (j_seed j)) (fun _ => guarded k j)).

  (** run_parallel.py:40-50: the simulations in turn; process_result takes [-1] of what run() returned, which is a
      TypeError (here [Ordinary 0]) for None. *)
  Fixpoint queue (k : nat) (jobs : list job) : did (list (R * Z * nat)) :=
    match jobs with
    | [] => ret []
    | j :: rest =>
        bind (run k j) (fun res =>
        match res with
        | None => ([], inr (Ordinary 0))
        | Some r =>
            bind ([Reported k], inl tt) (fun _ =>
            bind (queue (S k) rest) (fun rs => ret (r :: rs)))
        end)
    end.

  (** run_parallel.py:36-53; no try block surrounds the queue.  rx's run() raises SequenceContainsNoElementsError (here
      [Ordinary 1]) when there is no simulation. *)
  Definition run_parallel (jobs : list job) : did (list (R * Z * nat)) :=
    bind ([SystemUp], inl tt) (fun _ =>
    bind (match jobs with [] => ([], inr (Ordinary 1)) | _ => queue 0 jobs end) (fun rs => ([Summary; ExecutorDown; SystemDown], inl rs))).
End Worker.
