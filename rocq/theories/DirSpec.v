(** Vocabulary for C142 and C143. *)
Require Import String List ZArith.
From Verif Require Import FsModel DirModel.
Import ListNotations.
Open Scope string_scope.

(** A listing names everything in a directory once, in whatever order. *)
Definition some_order (listing : fs -> path -> list string) : Prop :=
  forall s d, NoDup (listing s d) /\ forall n, In n (listing s d) <-> lookup s (d ++ [n])%list <> None.

(** [q] lies somewhere below [root]. *)
Definition below (root q : path) : Prop := exists d, d <> [] /\ q = (root ++ d)%list.

(** [p] is a JSON file with contents [b], somewhere below [root]; [p'] is the path of the pickle beside it. *)
Definition json_file (s : fs) (root p p' : path) (b : string) : Prop :=
  exists (d : path) (n : string), p = (root ++ d ++ [(n ++ ".json")%string])%list /\
    p' = (root ++ d ++ [(n ++ ".pickle")%string])%list /\
    lookup s p = Some (File b).

(** Neither a JSON file below [root] nor the pickle of one. *)
Definition apart_from_json (s : fs) (root q : path) : Prop :=
  forall p p' b, json_file s root p p' b -> q <> p /\ q <> p'.

(** The state of the file system when the process is killed after [k] steps. *)
Definition killed_after (s : fs) (run : list wop * option werr) (k : nat) : fs := apply_ws s (firstn k (fst run)).

(** The state when the run is over. *)
Definition final (s : fs) (run : list wop * option werr) : fs := apply_ws s (fst run).

(** A file below [root], in directory [d] (a path from [root]) under the name [n]. *)
Definition file_below (s : fs) (root d : path) (n : string) : Prop :=
  exists b, lookup s (root ++ d ++ [n])%list = Some (File b).
