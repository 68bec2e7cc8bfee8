(** Model of NSGA-II as the driver of HGS's nodes: NSGAII.py with NSGAII/message.py:9-12 and
    ClassicHGS.py:234-283.  No proofs here. *)
From Verif Require Import Spec VarModel NDSortModel NsgaModel.
Local Open Scope nat_scope.

Section Nsga.
  Variable P : NsgaModel.params.
  Variable mating : nat -> nat.

  (** NSGAII.py:122-131: the first front of the last sort, kept on the driver; its vectors are what
      NSGAII/message.py:9-12 with HGS/distributed/message.py:78-79 nominates. *)
  Definition first_front (s : nstate) : option (list vec) :=
    let s1 := calculate_objectives P s in
    match nsgaii_nd_sort (obj_at (individuals s1)) (p_iter P) (seq 0 (length (individuals s1))) with
    | None => None
    | Some [] => Some []
    | Some (f :: _) => match select_positions (individuals s1) f with None => None | Some l => Some (map iv l) end
    end.
  (** The driver with that front; ClassicHGS.py:234-247 makes it, 261-281 uses it. *)
  Definition nd := (nstate * list vec)%type.
  (** ClassicHGS.py:234-249 with NSGAII.py:29-66. *)
  Definition nd_new (lv : nat) (_ : NsgaModel.step_draws) (pop : list vec) : option nd := Some (init P mating None pop, []).
  (** ClassicHGS.py:261-277 with NSGAII.py:88-99. *)
  Definition nd_step (D : NsgaModel.step_draws) (d : nd) : option nd :=
    match step P D (fst d) with None => None | Some s => Some (s, snd d) end.
  (** ClassicHGS.py:279-281 with NSGAII.py:72-86. *)
  Definition nd_final (_ : NsgaModel.step_draws) (d : nd) : option (nd * list vec) :=
    match first_front (fst d), finish P (fst d) with Some f, Some (s, out) => Some ((s, f), out) | _, _ => None end.
  (** ClassicHGS.py:281 with NSGAII/message.py:9-12. *)
  Definition nd_delegates (d : nd) : option (list vec) := Some (snd d).
End Nsga.
