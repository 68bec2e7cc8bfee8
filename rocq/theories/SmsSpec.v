(** Specification vocabulary for SMS-EMOA: fronts of positions and hypervolume contributions. *)
From Verif Require Import Spec HvSpec SmsModel.

(** The objective vector at a position. *)
Definition obj_at {A} (f : A -> vec) (l : list A) (i : nat) (o : vec) : Prop :=
  exists x, nth_error l i = Some x /\ f x = o.

(** [fronts] splits the positions of [l] into non-dominated fronts: each front holds exactly the
    positions, not in an earlier front, that no position outside the earlier fronts dominates. *)
Definition split_into_fronts {A} (f : A -> vec) (l : list A) (fronts : list (list nat)) : Prop :=
  Permutation (concat fronts) (seq 0 (length l)) /\
  Forall (fun front => front <> []) fronts /\
  forall k front i, nth_error fronts k = Some front ->
    (In i front <->
     i < length l /\ ~ In i (concat (firstn k fronts)) /\
     forall j oj oi, obj_at f l j oj -> ~ In j (concat (firstn k fronts)) -> obj_at f l i oi ->
       ~ pareto_dom oj oi).

(** [os] are the objective vectors of the positions [front]. *)
Definition objectives_of {A} (f : A -> vec) (l : list A) (front : list nat) (os : list vec) : Prop :=
  Forall2 (obj_at f l) front os.

(** [c] is the hypervolume that [front] loses without position [i]. *)
Definition contribution {A} (ref : vec) (f : A -> vec) (l : list A) (front : list nat) (i : nat) (c : Z) : Prop :=
  exists before after os os' v v',
    front = before ++ i :: after /\ objectives_of f l front os /\ objectives_of f l (before ++ after) os' /\
    is_hypervolume ref os v /\ is_hypervolume ref os' v' /\ c = (v - v')%Z.

(** The conditions under which the hypervolume indicator is exact on the objective vectors [objs]
    and on every part of them (C22, C23). *)
Definition hv_conditions (neg : Z) (ref : vec) (objs : list vec) : Prop :=
  ref <> [] /\ (forall o, In o objs -> length o = length ref) /\
  (length ref <= 3 \/ separated ref objs) /\
  (3 <= length ref -> forall o, In o objs -> Forall2 (fun a r => (neg <= a - r)%Z) o ref).

(** random.sample gives two different positions of the population. *)
Definition good_sample (N : nat) (D : sms_draws) : Prop :=
  fst (sample2 D) < N /\ snd (sample2 D) < N /\ fst (sample2 D) <> snd (sample2 D).
