(** Timed runs with the clock in floating point: algorithms/base/driver.py:83-110.  [rnd] is the rounding of every
    operation on doubles; integers are Python's.  No proofs here. *)
From Coq Require Import Reals List ZArith.
From Flocq Require Import Core.
From Verif Require Import Spec RunModel.
Import ListNotations.
Local Open Scope R_scope.

Section FTime.
  Context {S : Type} (step : S -> S) (cost : S -> Z) (tstep timeout : Z) (rnd : R -> R).

  (** math.h's fmod, which is exact (used by // of driver.py:101). *)
  Definition fmod (a b : R) : R := a - b * IZR (Ztrunc (a / b)).

  (** a // b on floats as CPython computes it (float_divmod), for driver.py:101: the remainder by fmod, the quotient
      from the rounded difference, one less when the signs of remainder and divisor differ, then snapped to the
      nearest integral value.  The sign of a zero is left out. *)
  Definition float_floordiv (a b : R) : R :=
    let mod_ := fmod a b in
    let div := rnd (rnd (a - mod_) / b) in
    let div := if Req_EM_T mod_ 0 then div
               else if xorb (Rlt_bool b 0) (Rlt_bool mod_ 0) then rnd (div - 1) else div in
    if Req_EM_T div 0 then 0
    else let floordiv := IZR (Zfloor div) in
         if Rlt_bool (1 / 2) (rnd (div - floordiv)) then rnd (floordiv + 1) else floordiv.

  (** driver.py:96-98: the new time_elapsed, given the two readings of time.time(). *)
  Definition add_elapsed (elapsed : R) (reading : R * R) : R := rnd (elapsed + rnd (snd reading - fst reading)).

  (** driver.py:99-101: how often the inner loop runs.  self.step * self.step_no is an integer, converted for the
      subtraction; the float // int converts self.step. *)
  Definition slots_due (elapsed : R) (step_no : Z) : nat :=
    Z.to_nat (Ztrunc (float_floordiv (rnd (elapsed - rnd (IZR (tstep * step_no)))) (rnd (IZR tstep)))).

  (** driver.py:93-110 - TimeRun._start; [readings] are the values of time.time() before and after each step of the
      driver.  [None] = the oracle was exhausted before the loop ended.  The inner loop works on integers
      ([emit_slots] of RunModel). *)
  Fixpoint f_time_loop (readings : list (R * R)) (elapsed : R) (step_no : Z) (previous : option progress)
      (d : driver S) : option (list (emission S) * driver S) :=
    if Rlt_bool elapsed (IZR timeout) then
      match readings with
      | [] => None
      | rd :: readings' =>
          let (result, d') := next_step step cost d in
          let elapsed' := add_elapsed elapsed rd in
          let '(es, step_no') :=
            match previous with
            | Some prev => emit_slots tstep timeout (slots_due elapsed' step_no) step_no prev (d_state d')
            | None => ([], step_no)
            end in
          match f_time_loop readings' elapsed' step_no' (Some result) d' with
          | Some (es', d'') => Some (es ++ es', d'')
          | None => None
          end
      end
    else Some ([], d).

  (** driver.py:84-88, 93-94: time_elapsed = 0, step_no = 0, previous_result = None. *)
  Definition f_time_run (readings : list (R * R)) (d : driver S) : option (list (emission S) * driver S) :=
    f_time_loop readings 0 0 None d.
End FTime.
