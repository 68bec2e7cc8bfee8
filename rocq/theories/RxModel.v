(** evotools/rxtools.py:34-64: merging the messages of several processes into one observable. *)
Require Import List Bool Arith.
Import ListNotations.

Section Rx.
  (** Messages, among them the string "end", and Python's [==] with it. *)
  Variable M : Type.
  Variable end_msg : M.
  Variable is_end : M -> bool.

  (** What the observable of a provider does in its process: the messages it emits, and whether it then completes
      (otherwise it raises, or its process dies). *)
  Record provider : Type := { emits : list M; completes : bool }.

  (** rxtools.py:34-35 [observable_worker]: what is put into the queue.  (There is no on_error.) *)
  Definition puts (p : provider) : list M := emits p ++ (if completes p then [end_msg] else []).

  (** rxtools.py:54-62: the loop over the queue, given everything that ever arrives in it: the messages passed on, and
      whether the loop ends and on_completed is called ([false]: queue.get waits for ever). *)
  Fixpoint reader (n ended : nat) (arriving : list M) : list M * bool :=
    if ended <? n then
      match arriving with
      | [] => ([], false)
      | msg :: rest =>
          if is_end msg then reader n (S ended) rest
          else let (out, done) := reader n ended rest in (msg :: out, done)
      end
    else ([], true).

  (** rxtools.py:44-64 [multiprocess_observable], for one order of arrival of what the providers put. *)
  Definition multiprocess_observable (providers : list provider) (arriving : list M) : list M * bool :=
    reader (length providers) 0 arriving.
End Rx.
