(** Specification for C150. *)
Require Import String Ascii List.
From Verif Require Import ClearModel.
Open Scope string_scope.

(** [w] occurs in [s]. *)
Definition occurs (w s : string) : Prop := exists a b, s = a ++ w ++ b.
(** [s] ends with [w]. *)
Definition ends_with (w s : string) : Prop := exists a, s = a ++ w.
(** A file, a directory under a path. *)
Definition file_at (n : node) (path : list string) (bytes : string) : Prop := at_path n path = Some (NFile bytes).
Definition dir_at (n : node) (path : list string) : Prop := exists l, at_path n path = Some (NDir l).
(** A name is not listed twice. *)
Definition proper (n : node) : Prop := forall path l, at_path n path = Some (NDir l) -> NoDup (map fst l).
(** A usable name of a directory or file. *)
Definition plain (s : string) : Prop := forall i, String.get i s <> Some "/"%char.
(** Without wildcards. *)
Definition no_wild (s : string) : Prop := forall i, String.get i s <> Some "*"%char /\ String.get i s <> Some "?"%char.
(** What the cache file of a dominance indicator is called after the number of the result. *)
Definition pdi_suffix : string := ".pareto_dominance_indicator.pickle".
