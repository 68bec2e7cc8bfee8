(** Specification vocabulary for C119: trimming functions and trimmed vectors. *)
From Verif Require Import Spec.

(** The trimming functions the library hands to drivers (trim_vector of HGS, and the identity): every gene
    is rounded on its own, and rounding twice changes nothing (C55). *)
Definition rounds_genes (trim : vec -> vec) : Prop :=
  exists t : Z -> Z, (forall x, t (t x) = t x) /\ forall v, trim v = map t v.

(** Every vector of the list is one the trimming function gives back unchanged. *)
Definition all_trimmed (trim : vec -> vec) (l : list vec) : Prop := forall v, In v l -> trim v = v.

(** [x] is an integer of at most [k] significant bits times a power of two. *)
Definition short (k : nat) (x : Z) : Prop :=
  exists m e, (0 <= e /\ Z.abs m < 2 ^ Z.of_nat k /\ x = m * 2 ^ e)%Z.
