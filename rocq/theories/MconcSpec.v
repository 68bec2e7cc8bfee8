(** Specification for C149. *)
Require Import String Ascii Arith.
Open Scope string_scope.

(** [b] is [full], cut off somewhere and with zeros in place of some bytes. *)
Definition worn (full b : string) : Prop :=
  String.length b <= String.length full /\
  forall i c, String.get i b = Some c -> String.get i full = Some c \/ c = "000"%char.
