(** Specification for C148. *)
Require Import String List.
From Verif Require Import FsModel FsSpec.
Import ListNotations.

Section Conc.
  Variable R : Type.

  Definition event_of (lr : location * R) (x : reach) : event R :=
    {| e_loc := fst lr; e_result := snd lr; e_reach := x |}.

  (** All of them stored. *)
  Definition stored (jobs : list (location * R)) : list (event R) := map (fun j => event_of j Finished) jobs.

  (** How far a process that stores [jobs] in turn can have got: some of them finished, and at most the next one begun
      and cut off. *)
  Inductive got_to : list (location * R) -> list (event R) -> Prop :=
  | nothing_yet : forall jobs, got_to jobs []
  | in_the_middle : forall j rest x, got_to (j :: rest) [event_of j x]
  | further : forall j rest h, got_to rest h -> got_to (j :: rest) (event_of j Finished :: h).

  (** No two processes store to the same place. *)
  Definition apart (jobs : list (list (location * R))) : Prop :=
    forall i j a b l, i <> j -> nth_error jobs i = Some a -> nth_error jobs j = Some b ->
      In l (map fst a) -> ~ In l (map fst b).
End Conc.
