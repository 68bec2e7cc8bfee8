(** Specification for C146 and C147. *)
Require Import String List ZArith QArith.
Import ListNotations.
Open Scope Z_scope.

(** Hours, minutes and seconds that a reader takes for [t] seconds. *)
Definition reads_as (hms : Z * Z * Z) (t : Z) : Prop :=
  let '(h, m, s) := hms in h * 3600 + m * 60 + s = t /\ 0 <= m < 60 /\ 0 <= s < 60.

(** Equality of configurations (problem and algorithm) is decidable. *)
Definition same_config : forall a b : string * string, {a = b} + {a <> b}.
Proof. decide equality; apply string_dec. Defined.

(** The times of the runs of configuration [c], and their sum. *)
Definition times_of (c : string * string) (runs : list (string * string * Q)) : list Q :=
  map snd (filter (fun r => if same_config c (fst r) then true else false) runs).
Definition sum (l : list Q) : Q := fold_right Qplus 0%Q l.
