(** Python string operations used by the simulation layer (simulation/factory.py,
    simulation/model.py, simulation/serialization.py).  Strings are Coq [string]s, i.e.
    sequences of 8-bit characters; names, dates and digits in the code are ASCII. *)
Require Import String Ascii List Arith NArith Bool.
Import ListNotations.
Open Scope string_scope.

(** Python's [s.split(c)] for a one-character separator (factory.py:77,93,103,109). *)
Fixpoint split (c : ascii) (s : string) : list string :=
  match s with
  | EmptyString => [EmptyString]
  | String x r =>
      if Ascii.eqb x c then EmptyString :: split c r
      else match split c r with
           | [] => [String x EmptyString]
           | w :: ws => String x w :: ws
           end
  end.

(** Python's [sep.join(l)] (factory.py:241 and 345). *)
Definition join (sep : string) (l : list string) : string := String.concat sep l.

(** Python's [str.lower] on ASCII (factory.py:77, 82, 93, 96). *)
Definition lower_char (x : ascii) : ascii :=
  let n := nat_of_ascii x in
  if ((65 <=? n) && (n <=? 90))%nat then ascii_of_nat (n + 32) else x.

Fixpoint lower (s : string) : string :=
  match s with
  | EmptyString => EmptyString
  | String x r => String (lower_char x) (lower r)
  end.

(** Python's [x in list] on strings. *)
Definition str_in (s : string) (l : list string) : bool := existsb (String.eqb s) l.

(** Truth value of a string: non-empty. *)
Definition truthy (s : string) : bool := negb (String.eqb s "").

(** One decimal digit: the class [0-9] (and [\d], restricted to ASCII) of the regular
    expressions in serialization.py:28 and 68. *)
Definition is_digit (x : ascii) : bool :=
  let n := nat_of_ascii x in ((48 <=? n) && (n <=? 57))%nat.

Definition digit (n : N) : ascii := ascii_of_N (48 + n).

Definition digit_value (x : ascii) : N := N_of_ascii x - 48.

(** [str(n)] of a non-negative integer (the fuel is the number of binary digits, which is
    at least the number of decimal digits). *)
Fixpoint str_fuel (fuel : nat) (n : N) : string :=
  match fuel with
  | O => EmptyString
  | S f => if (n <? 10)%N then String (digit n) EmptyString
           else str_fuel f (n / 10) ++ String (digit (n mod 10)) EmptyString
  end.

Definition str_of_N (n : N) : string := str_fuel (S (N.size_nat n)) n.

(** [int(s)] of a string of decimal digits (leading zeros allowed, anything else is a
    ValueError, here [None]).  Signs, blanks and underscores, which Python's [int] also
    accepts, are not modelled. *)
Fixpoint digits_value (acc : N) (s : string) : option N :=
  match s with
  | EmptyString => Some acc
  | String x r => if is_digit x then digits_value (10 * acc + digit_value x) r else None
  end.

Definition int_of_str (s : string) : option N :=
  match s with EmptyString => None | _ => digits_value 0 s end.

(** The format [{s:0>7}]: pad on the left with zeros up to seven characters
    (model.py:10). *)
Fixpoint zeros (k : nat) : string :=
  match k with O => EmptyString | S k' => String "0"%char (zeros k') end.

Definition pad7 (s : string) : string := zeros (7 - String.length s) ++ s.

(** Lexicographic order of strings by code points (Python's [<=] on [str]; paths of one
    directory are compared by their names). *)
Fixpoint str_leb (a b : string) : bool :=
  match a, b with
  | EmptyString, _ => true
  | String _ _, EmptyString => false
  | String x a', String y b' =>
      if (nat_of_ascii x <? nat_of_ascii y)%nat then true
      else if (nat_of_ascii y <? nat_of_ascii x)%nat then false
      else str_leb a' b'
  end.

(** [sorted] of a list by a boolean order: a stable insertion sort. *)
Section Sorted.
  Context {A : Type} (leb : A -> A -> bool).
  Fixpoint insert_by (x : A) (l : list A) : list A :=
    match l with
    | [] => [x]
    | y :: r => if leb x y then x :: l else y :: insert_by x r
    end.
  Definition sort_by (l : list A) : list A := fold_right insert_by [] l.
End Sorted.
