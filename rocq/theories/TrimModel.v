(** Model of the mantissa trimming.  Source: algorithms/HGS/tools.py and algorithms/HGS/classic/ClassicHGS.py.
    floatextras is not part of the repository: as_tuple is taken to give the sign, the significand bits from the most
    significant one on (any number of them) and an exponent such that the value is 0.d1d2d3... * 2^exponent; another
    placement of the binary point only shifts the exponent. *)
From Coq Require Import QArith List Bool.
Import ListNotations.
Local Open Scope Q_scope.

(** floatextras.as_tuple(value). tools.py:31. *)
Record float_tuple := { sign : bool; digits : list bool; exponent : Z }.

(** 0.d1d2d3... tools.py:31-33. *)
Fixpoint fraction (ds : list bool) : Q :=
  match ds with
  | [] => 0
  | d :: ds' => ((if d then 1 else 0) + fraction ds') / 2
  end.

(** The number a tuple stands for: floatextras.from_tuple. tools.py:33. *)
Definition magnitude (x : float_tuple) : Q := fraction (digits x) * Qpower 2 (exponent x).
(** tools.py:33: the number with its sign. *)
Definition value (x : float_tuple) : Q := if sign x then - magnitude x else magnitude x.

(** tools.py:30-33 = ClassicHGS.py:371-374: [i] is the index of the first digit. *)
Fixpoint keep_digits (i bits_no : nat) (ds : list bool) : list bool :=
  match ds with
  | [] => []
  | d :: ds' => (if Nat.ltb i bits_no then d else false) :: keep_digits (S i) bits_no ds'
  end.
(** tools.py:30-33, ClassicHGS.py:371-374. *)
Definition trim_mantissa (x : float_tuple) (bits_no : nat) : float_tuple :=
  {| sign := sign x; digits := keep_digits 0 bits_no (digits x); exponent := exponent x |}.

(** tools.py:26-27 = ClassicHGS.py:367-368 *)
Definition trim_vector (vector : list float_tuple) (bits_no : nat) : list float_tuple := map (fun x => trim_mantissa x bits_no) vector.
