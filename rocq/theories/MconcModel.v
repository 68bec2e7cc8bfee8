(** Several processes that ask for the same metric of the same result at the same time:
    simulation/metrics_processor.py:70-123 at the level of system calls.  Only the cache file of this metric of this
    result is modelled (others have other paths); it is never removed. *)
Require Import String Ascii List Arith Bool.
From Verif Require Import ConcModel.
Import ListNotations.
Open Scope string_scope.

(** metrics_processor.py:83-84, 107-116: opening for reading, reading a byte at a position, opening for writing, writing
    a byte at a position. *)
Inductive mcall : Type := OpenR | ReadB (n : nat) | OpenW | WriteB (n : nat) (c : ascii).

(** metrics_processor.py:82-84: what they return; [Missing] is FileNotFoundError. *)
Inductive mreply : Type := Opened | Missing | Byte (c : ascii) | Eof.

(** metrics_processor.py:82-84, 107-116: the effect on the file and the reply. *)
Definition do_mcall (f : option string) (c : mcall) : option string * mreply :=
  match c, f with
  | OpenR, None => (None, Missing)
  | OpenR, Some b => (Some b, Opened)
  | ReadB n, Some b => (Some b, match String.get n b with Some c => Byte c | None => Eof end)
  | ReadB n, None => (None, Eof)
  | OpenW, _ => (Some "", Opened)
  | WriteB n c, Some b => (Some (write_at n c b), Opened)
  | WriteB n c, None => (None, Opened)
  end.

Section Ask.
  Variables V P : Type.
  Variable eqP : P -> P -> bool.
  Variable pickle_m : V * P -> string.
  Variable unpickle_m : string -> option (V * P).

  (** metrics_processor.py:70-123: how a query ends: a value, the exception about changed parameters, an exception of
      pickle.load, one of the metric itself. *)
  Inductive answer : Type := Value (v : V) | ParamsChanged | NotUnpickled | MetricRaised | OutOfFuel.

  (** metrics_processor.py:70-123: a query that has ended, or makes a call and goes on with the reply. *)
  Inductive mprog : Type := Ended (a : answer) | MCall (c : mcall) (k : mreply -> mprog).

  (** metrics_processor.py:84 [pickle.load]: the bytes up to the end of the file, one after the other (pickle stops
      before the end if there is more after the object). *)
  Fixpoint read_all (fuel position : nat) (acc : string) (k : string -> mprog) : mprog :=
    MCall (ReadB position) (fun r =>
      match r with
      | Byte c => match fuel with S fuel' => read_all fuel' (S position) (acc ++ String c "") k | O => Ended OutOfFuel end
      | _ => k acc
      end).

  (** metrics_processor.py:116 [pickle.dump] *)
  Fixpoint dump (position : nat) (bytes : string) (k : mprog) : mprog :=
    match bytes with
    | EmptyString => k
    | String c rest => MCall (WriteB position c) (fun _ => dump (S position) rest k)
    end.

  (** metrics_processor.py:85-98: what is made of the bytes read. *)
  Definition decoded (params : P) (b : string) : answer :=
    match unpickle_m b with
    | None => NotUnpickled
    | Some (v, params') => if eqP params' params then Value v else ParamsChanged
    end.

  (** metrics_processor.py:70-123 [get_metric]; [computed] is what the metric gives (None: it raises). *)
  Definition ask_metric (fuel : nat) (computed : option V) (params : P) : mprog :=
    MCall OpenR (fun r =>
      match r with
      | Missing =>
          match computed with
          | None => Ended MetricRaised
          | Some v => MCall OpenW (fun _ => dump 0 (pickle_m (v, params)) (Ended (Value v)))
          end
      | _ => read_all fuel 0 "" (fun b => Ended (decoded params b))
      end).

  (** metrics_processor.py:70-123: the process with number [i] makes its next call. *)
  Definition mturn (st : option string * list mprog) (i : nat) : option string * list mprog :=
    match nth_error (snd st) i with
    | Some (MCall c k) =>
        let (f', r) := do_mcall (fst st) c in
        (f', (firstn i (snd st) ++ k r :: skipn (S i) (snd st))%list)
    | _ => st
    end.

  (** metrics_processor.py:70-123: [n] processes under a schedule. *)
  Definition ask_together (fuel : nat) (computed : option V) (params : P) (f : option string) (n : nat)
      (schedule : list nat) : option string * list mprog :=
    fold_left mturn schedule (f, repeat (ask_metric fuel computed params) n).
End Ask.
