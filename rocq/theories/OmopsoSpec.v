(** Specification vocabulary for the OMOPSO archives. *)
From Verif Require Import Spec VarModel NsgaModel OmopsoModel.
From Coq Require Import QArith.
Local Open Scope nat_scope.

(** [a] is at least as good as [b] in everything. *)
Definition covers (a b : vec) : Prop := a = b \/ pareto_dom a b.

(** No member's objectives dominate another's. *)
Definition antichain {A} (obj : A -> vec) (l : list A) : Prop :=
  forall x y, In x l -> In y l -> ~ pareto_dom (obj x) (obj y).

(** [newer] replaces [older] only if it dominates it, all along the list (newest first). *)
Fixpoint improving (chain : list vec) : Prop :=
  match chain with
  | newer :: ((older :: _) as rest) => pareto_dom newer older /\ improving rest
  | _ => True
  end.

(** Several add() calls on the archive of epsilon-dominance, and on a leader archive. *)
Fixpoint add_all (en ed : Z) (archive : list leader) (ps : list leader) : option (list leader) :=
  match ps with
  | [] => Some archive
  | p :: ps' => match archive_add en ed archive p with None => None | Some (l, _) => add_all en ed l ps' end
  end.
Fixpoint leader_adds (size : nat) (l : list leader) (ps : list leader) : option (list leader) :=
  match ps with
  | [] => Some l
  | p :: ps' => match leader_add size l p with None => None | Some (l', _) => leader_adds size l' ps' end
  end.

(** Draws of a step, and of the steps of a run: the tournaments sample existing leaders. *)
Definition om_good (D : om_draws) (s : om_state) : Prop :=
  forall k, k < length (om_particles s) -> 1 < length (om_leaders s) ->
    fst (om_pick D k) < length (om_leaders s) /\ snd (om_pick D k) < length (om_leaders s).
Fixpoint om_goods (P : params) (fa : option (list (vec * vec))) (en ed : Z) (Ds : list om_draws) (s : om_state) : Prop :=
  match Ds with
  | [] => True
  | D :: Ds' => om_good D s /\ forall s', om_step P en ed fa D s = Some s' -> om_goods P fa en ed Ds' s'
  end.

(** ---- crowding ---- *)
Definition coord (i : nat) (v : vec) : Z := nth i v 0%Z.
(** [v] has the least or the greatest i-th objective among the points. *)
Definition extreme (i : nat) (pts : list vec) (v : vec) : Prop :=
  (forall w, In w pts -> (coord i v <= coord i w)%Z) \/ (forall w, In w pts -> (coord i w <= coord i v)%Z).
(** The distance of [v] to the next smaller point in objective [i], as a fraction of the spread. *)
Definition gap (i : nat) (pts : list vec) (v : vec) (g : Q) : Prop :=
  exists below lo hi, In below pts /\ In lo pts /\ In hi pts /\
    (coord i below < coord i v)%Z /\ (forall w, In w pts -> (coord i w < coord i v)%Z -> (coord i w <= coord i below)%Z) /\
    (forall w, In w pts -> (coord i lo <= coord i w <= coord i hi)%Z) /\
    (g == inject_Z (coord i v - coord i below) / inject_Z (coord i hi - coord i lo))%Q.
(** The crowding value: infinite (None) for a point extreme in one of the first [k] objectives,
    otherwise the sum of its gaps. *)
Definition crowding_value (k : nat) (pts : list vec) (v : vec) (c : option Q) : Prop :=
  ((exists i, i < k /\ extreme i pts v) /\ c = None) \/
  ((forall i, i < k -> ~ extreme i pts v) /\
   exists gs q, length gs = k /\ (forall i g, nth_error gs i = Some g -> gap i pts v g) /\ c = Some q /\ (q == fold_right Qplus 0 gs)%Q).
