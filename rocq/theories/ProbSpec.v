(** What a user expects of a benchmark problem. *)
From Coq Require Import Reals List.
From Verif Require Import ProbModel.
Import ListNotations.
Local Open Scope R_scope.

(** A vector within the bounds of the problem. *)
Definition admissible (P : problem) (x : list R) : Prop :=
  Forall2 (fun d v => fst d <= v <= snd d) (p_dims P) x.

(** [f] is what the objectives return for [x]; in particular none of them raises. *)
Definition evaluates (P : problem) (x f : list R) : Prop :=
  map (fun fit => fit x) (p_fits P) = map Some f.

Definition attainable (P : problem) (f : list R) : Prop :=
  exists x, admissible P x /\ evaluates P x f.

(** Pareto dominance (minimisation). *)
Definition better (f g : list R) : Prop := Forall2 Rle f g /\ f <> g.

(** No objective raises on any admissible vector. *)
Definition objectives_defined (P : problem) : Prop :=
  forall x, admissible P x -> exists f, evaluates P x f.

(** The published front consists of attainable points that nothing attainable dominates. *)
Definition front_optimal (P : problem) : Prop :=
  exists fr, p_front P = Some fr /\ fr <> [] /\
    forall p, In p fr ->
      attainable P p /\ forall f, attainable P f -> ~ better f p.

(** Whatever a search attains, some published point is as good in every objective, up to
    [eps]. *)
Definition front_covers (eps : R) (P : problem) : Prop :=
  exists fr, p_front P = Some fr /\
    forall f, attainable P f ->
      exists p, In p fr /\ Forall2 (fun a b => a <= b + eps) p f.
