(** Vocabulary for C144. *)
Require Import String List NArith.
From Verif Require Import FsModel FsSpec.
Import ListNotations.

Section Spec.
  Variable R : Type.

  (** [ids] are the runs of [algo] on [problem] that stored a result under the number [k]. *)
  Definition runs_with (h : list (event R)) (problem algo : string) (k : N) (ids : list string) : Prop :=
    NoDup ids /\ forall i, In i ids <-> last_stored R h problem algo i k <> None.
End Spec.
