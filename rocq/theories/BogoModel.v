(** Model of the BOGO driver.  Source: algorithms/BOGO/BOGO.py.  Objectives and coordinates are exact
    numbers; random.uniform is the argument of a step.  The print of line 55 is left out. *)
From Verif Require Import Spec DomModel.

(** BOGO.py:7-10: the vector and its objectives. *)
Definition bogo_ind (f : vec -> vec) (v : vec) : vec * vec := (v, f v).

(** BOGO.py:38-42 for the members not yet visited; the result is new_archive and the flag. *)
Fixpoint bogo_loop (dominated : bool) (ind : vec * vec) (archive : list (vec * vec)) : list (vec * vec) * bool :=
  match archive with
  | [] => ([], dominated)
  | archival :: rest =>
      if negb dominated && dominates (snd archival) (snd ind) then bogo_loop true ind rest
      else
        let '(kept, flag) := bogo_loop dominated ind rest in
        (if negb (dominates (snd ind) (snd archival)) then archival :: kept else kept, flag)
  end.
(** BOGO.py:35-45 *)
Definition refresh_archive (archive : list (vec * vec)) (ind : vec * vec) : list (vec * vec) :=
  let '(kept, flag) := bogo_loop false ind archive in
  if flag then kept else kept ++ [ind].

(** BOGO.py:26-33: self.archive and self.cost. *)
Record bogo_state := { b_archive : list (vec * vec); b_cost : nat }.

(** BOGO.py:28-31 (one individual) and 50-54 *)
Definition bogo_add (f : vec -> vec) (s : bogo_state) (v : vec) : bogo_state :=
  {| b_archive := refresh_archive (b_archive s) (bogo_ind f v); b_cost := b_cost s + 1 |}.
(** BOGO.py:14-33 *)
Definition bogo_init (f : vec -> vec) (population : list vec) : bogo_state :=
  fold_left (bogo_add f) population {| b_archive := []; b_cost := 0 |}.
(** A number of steps; [draws]: the vectors of line 51. *)
Definition bogo_steps (f : vec -> vec) (draws : list vec) (s : bogo_state) : bogo_state :=
  fold_left (bogo_add f) draws s.
(** BOGO.py:47-48 *)
Definition bogo_finalized (s : bogo_state) : list vec := map fst (b_archive s).
