(** Specification vocabulary for the JGBL theorems. *)
From Verif Require Import Spec VarModel NsgaModel JgblModel.
Local Open Scope nat_scope.

(** What the step may assume of its oracles: sets are iterated in some order, and the gene-jumping
    operations map vectors of the box to vectors of the box (C20). *)
Definition jump_ok (dims : box) (J : jump_draws) : Prop :=
  (forall l, Permutation (j_union J l) l) /\
  (forall l, Permutation (j_union2 J l) l) /\
  (forall k x y, in_box dims x -> in_box dims y ->
     in_box dims (fst (j_cut J k x y)) /\ in_box dims (snd (j_cut J k x y)) /\
     in_box dims (fst (j_copy J k x y)) /\ in_box dims (snd (j_copy J k x y))).

Definition jop_ok (dims : box) (o : jop) : Prop :=
  match o with JStep _ J => jump_ok dims J | JFinalize => True end.

Definition is_jstep (o : jop) : bool := match o with JStep _ _ => true | JFinalize => false end.
Definition jsteps_in (ops : list jop) : nat := length (filter is_jstep ops).

(** How many of the first n individuals jump. *)
Definition jumpers (J : jump_draws) (n : nat) : nat := length (filter (j_jumps J) (seq 0 n)).

(** [front] holds exactly the positions of the individuals of [pool] that no member of it dominates. *)
Definition pareto_positions (f : vec -> vec) (pool : list indiv) (front : list nat) : Prop :=
  NoDup front /\
  forall i, In i front <->
    exists x, nth_error pool i = Some x /\
      forall y, In y pool -> ~ pareto_dom (f (iv y)) (f (iv x)).

(** [out] lists, for every vector of [pop] (numbered from i) whose draw says it jumps, the six vectors that
    cut-and-paste and copy-and-paste make of it and of two of the partners. *)
Inductive jumped_from (J : jump_draws) (partners : list vec) : nat -> list vec -> list vec -> Prop :=
| jumped_nil : forall i, jumped_from J partners i [] []
| jumped_stay : forall i v pop out, j_jumps J i = false -> jumped_from J partners (S i) pop out ->
    jumped_from J partners i (v :: pop) out
| jumped_jump : forall i v pop out p q, j_jumps J i = true -> In p partners -> In q partners ->
    jumped_from J partners (S i) pop out ->
    jumped_from J partners i (v :: pop)
      (snd (j_cut J (2 * i) v v) :: snd (j_copy J (2 * i) v v) ::
       fst (j_cut J (2 * i + 1) v p) :: snd (j_cut J (2 * i + 1) v p) ::
       fst (j_copy J (2 * i + 1) v q) :: snd (j_copy J (2 * i + 1) v q) :: out).

(** The members of a pool at the given positions. *)
Definition at_positions (pool : list indiv) (positions : list nat) (l : list indiv) : Prop :=
  Forall2 (fun i x => nth_error pool i = Some x) positions l.
