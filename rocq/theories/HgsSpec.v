(** Specification vocabulary for HGS: what the English properties talk about. *)
From Verif Require Import Spec VarModel HgsModel.
From Coq Require Import QArith.
Local Open Scope nat_scope.

(** Squared euclidean distance and "closer than". *)
Fixpoint sqdist (a b : list Q) : Q :=
  match a, b with x :: a', y :: b' => ((x - y) * (x - y) + sqdist a' b')%Q | _, _ => 0%Q end.
Definition closer_than (md : Q) (a b : list Q) : Prop := (0 < md /\ sqdist a b < md * md)%Q.

(** [c] is the mean of the vectors [vs]: as long as they are, and each coordinate times their number is the sum. *)
Definition coordinate (k : nat) (v : vec) : Z := nth k v 0%Z.
Definition is_mean (vs : list vec) (c : list Q) : Prop :=
  vs <> [] /\ (forall v, In v vs -> length c = length v) /\
  forall k, k < length c -> (nth k c 0 * inject_Z (Z.of_nat (length vs)) == inject_Z (fold_right Z.add 0%Z (map (coordinate k) vs)))%Q.

Section Spec.
  Context {drv : Type}.
  Notation hgs := (hgs drv). Notation node := (node drv).

  Definition node_at (s : hgs) (i : nat) (n : node) : Prop := nth_error (nodes s) i = Some n.

  (** The tree: the root first and alone on level 0; every node listed once, on its level, in creation order; no level beyond the
      largest; every other node has exactly one parent, created before it, one level up, which lists it once. *)
  Record well_formed (top : nat) (s : hgs) : Prop := {
    wf_root : exists n, node_at s 0 n /\ level n = 0;
    wf_three : length (level_nodes s) = 3;
    wf_listed : forall l ids, nth_error (level_nodes s) l = Some ids ->
      StronglySorted lt ids /\ forall i, In i ids <-> exists n, node_at s i n /\ level n = l;
    wf_levels : forall i n, node_at s i n -> level n < 3 /\ level n <= top;
    wf_parent : forall i n, node_at s i n -> 0 < i ->
      exists p m, node_at s p m /\ p < i /\ In i (sprouts m) /\ level n = S (level m) /\
                  forall q m', node_at s q m' -> In i (sprouts m') -> q = p;
    wf_sprouts : forall p m, node_at s p m -> NoDup (sprouts m) /\ forall k, In k (sprouts m) -> 0 < k < length (nodes s)
  }.

  Definition some_alive (s : hgs) : Prop := exists i n, node_at s i n /\ alive n = true.
End Spec.

Section Behaviour.
  Context {drv draw : Type}.
  Variable dstep : draw -> drv -> option drv.
  Variable dcost : drv -> Z.
  Variable dfinal : draw -> drv -> option (drv * list vec).
  Variable ddelegates : drv -> option (list vec).
  Variable hv_of : list vec -> Q.

  Fixpoint iterate (ds : list draw) (d : drv) : option drv :=
    match ds with [] => Some d | x :: ds' => match dstep x d with None => None | Some d' => iterate ds' d' end end.

  (** What a metaepoch of [len] steps does to a node: the driver runs, its population and delegates are taken, and the
      hypervolume is measured relative to the first one. *)
  Record after_metaepoch (len : nat) (n n' : node drv) : Prop := {
    am_run : exists ds d fd dels, length ds = len /\ iterate ds (driver n) = Some d /\ dfinal fd d = Some (driver n', population n') /\
      current_cost n' = (if len =? 0 then current_cost n else dcost d) /\
      ddelegates (driver n') = Some dels /\ Permutation dels (delegates n');
    am_rel : relative_hypervolume n' = Some (match relative_hypervolume n with None => hv_of (population n') | Some r => r end);
    am_old : old_hypervolume n' = hypervolume n;
    am_hv : hypervolume n' = match relative_hypervolume n with None => hypervolume n | Some r => Some (hv_of (population n') - r)%Q end;
    am_same : alive n' = alive n /\ ripe n' = ripe n /\ level n' = level n /\ sprouts n' = sprouts n /\ center n' = center n
  }.

  (** The progress a node must make: its hypervolume has to grow by the ratio asked of its level. *)
  Definition stagnates (eps : Q) (mpr : list Q) (n : node drv) : Prop :=
    exists old h p, old_hypervolume n = Some old /\ (0 < old)%Q /\ hypervolume n = Some h /\ nth_error mpr (level n) = Some p /\
      (h / (old + eps) - 1 < p / inject_Z (2 ^ Z.of_nat (level n)))%Q.

  (** Two centres that are points closer than [md]; a missing or undefined (nan) centre is near nothing. *)
  Definition near (md : Q) (a b : centre) : Prop := exists x y, a = At x /\ b = At y /\ closer_than md x y.
End Behaviour.

Section Release.
  Context {drv draw : Type}.
  Variable dnew : nat -> draw -> list vec -> option drv.
  Variable raw : Z -> Z -> Z -> Z -> Z.
  Variable C : config.
  Notation hgs := (hgs drv). Notation node := (node drv).

  (** The nodes reached from node [r] going down through ripe nodes only. *)
  Inductive reached (s : hgs) (r : nat) : nat -> Prop :=
  | reached_self n : node_at s r n -> ripe n = true -> reached s r r
  | reached_sprout p m i n : reached s r p -> node_at s p m -> In i (sprouts m) -> node_at s i n -> ripe n = true -> reached s r i.

  Definition near_bool (md : Q) (a b : centre) : bool :=
    match a, b with
    | At x, At y => (if Qlt_le_dec 0 md then true else false) && (if Qlt_le_dec (sqdist x y) (md * md) then true else false)
    | _, _ => false
    end.
  (** A delegate is taken when some node of level [lv] that has run has its centre closer than that level's distance. *)
  Definition taken (s : hgs) (lv : nat) (delegate : vec) : bool :=
    existsb (fun m => (level m =? lv) && negb (length (population m) =? 0) && near_bool (nth lv (min_dists C) 0%Q) (At (map inject_Z delegate)) (center m)) (nodes s).

  Definition is_alive (s : hgs) (i : nat) : bool := match nth_error (nodes s) i with Some n => alive n | None => false end.
  Definition alive_sprouts_of (s : hgs) (n : node) : nat := length (filter (is_alive s) (sprouts n)).

  (** The delegates that become sprouts: the first free ones, at most [sproutiveness], and no more than there is room for. *)
  Definition chosen (s : hgs) (n : node) : list vec :=
    if level n <? max_level C
    then firstn (Nat.min (sproutiveness C) (max_sprouts_no C - alive_sprouts_of s n)) (filter (fun d => negb (taken s (S (level n)) d)) (delegates n))
    else [].

  (** A node that has just been created. *)
  Definition brand_new (lv : nat) (n : node) : Prop :=
    alive n = true /\ ripe n = false /\ level n = lv /\ current_cost n = 0%Z /\ population n = [] /\ sprouts n = [] /\ delegates n = [] /\
    center n = Missing /\ relative_hypervolume n = None /\ old_hypervolume n = None /\ hypervolume n = None.
  (** Node [k] was made from [delegate]: its driver starts from the delegate and mutants of it, as many as the level asks for. *)
  Definition seeded (s : hgs) (lv k : nat) (delegate : vec) : Prop :=
    exists n dr mutants size rate, node_at s k n /\ brand_new lv n /\ dnew lv dr (delegate :: mutants) = Some (driver n) /\
      nth_error (population_sizes C) lv = Some size /\ nth_error (mutation_rates C) lv = Some rate /\ length (delegate :: mutants) = Nat.max 1 size /\
      Forall (fun v => exists sel rnd, VarModel.mutate raw sel rnd rate delegate (dims C) = Some v) mutants.

  Definition with_sprouts (n : node) (l : list nat) : node :=
    {| alive := alive n; ripe := ripe n; level := level n; current_cost := current_cost n; driver := driver n; population := population n;
       sprouts := l; delegates := delegates n; center := center n; relative_hypervolume := relative_hypervolume n;
       old_hypervolume := old_hypervolume n; hypervolume := hypervolume n |}.
End Release.

Section Runs.
  Context {drv draw : Type}.
  Variable dnew : nat -> draw -> list vec -> option drv.
  Variable dstep : draw -> drv -> option drv.
  Variable dcost : drv -> Z.
  Variable dfinal : draw -> drv -> option (drv * list vec).
  Variable ddelegates : drv -> option (list vec).
  Variable hv_of : list vec -> Q.
  Variable raw : Z -> Z -> Z -> Z -> Z.
  Variable EPSILON : Q.
  Variable C : config.
  Notation hgs := (hgs drv). Notation node := (node drv).

  (** The states of runs that have not raised: constructed, then any number of steps. *)
  Definition reachable (s : hgs) : Prop :=
    exists sampling d mpr pop Ds s0, hgs_init drv draw dnew C sampling d mpr pop = Ok s0 /\
      hgs_run drv draw dnew dstep dcost dfinal ddelegates hv_of raw EPSILON C Ds s0 = Ok s.

  (** What has been spent: the nodes' costs, each weighted by its level's modifier. *)
  Definition weighted (ns : list node) : Q :=
    fold_right (fun n acc => nth (level n) (cost_modifiers C) 0 * inject_Z (current_cost n) + acc)%Q 0%Q ns.
  (** ... and what the nodes [a] spent to become [b]. *)
  Definition weighted_growth (a b : list node) : Q :=
    fold_right (fun p acc => nth (level (fst p)) (cost_modifiers C) 0 * inject_Z (current_cost (snd p) - current_cost (fst p)) + acc)%Q 0%Q (combine a b).

  (** [n'] did what [n] did, whatever became of its place in the tree. *)
  Definition same_work (n n' : node) : Prop :=
    driver n' = driver n /\ population n' = population n /\ current_cost n' = current_cost n /\ delegates n' = delegates n /\
    relative_hypervolume n' = relative_hypervolume n /\ old_hypervolume n' = old_hypervolume n /\ hypervolume n' = hypervolume n.

  (** Between trimming and the end of a level's trimming: a node that makes [n'] (position [i]) redundant. *)
  Definition crowded (s s' : hgs) (i : nat) (n' : node) : Prop :=
    exists j m0 m md, node_at s j m0 /\ level m0 = level n' /\ node_at s' j m /\ (ripe m = true \/ (alive m0 = true /\ j < i)) /\
      nth_error (min_dists C) (level n') = Some md /\ near md (center m) (center n').
End Runs.

(** What HGS needs of its nodes' drivers: an invariant [good] that the constructor establishes (on a population of [least] or more
    vectors, and at least one, within the bounds) and a step keeps, neither raising; and, once the driver is [ready] - which a
    step makes it - a final population and delegates within the bounds. *)
Record driver_contract {drv draw : Type} (dnew : nat -> draw -> list vec -> option drv) (dstep : draw -> drv -> option drv)
  (dfinal : draw -> drv -> option (drv * list vec)) (ddelegates : drv -> option (list vec)) (b : box) (least : nat) (good ready : drv -> Prop) : Prop := {
  dc_new : forall lv x pop, 1 <= length pop -> least <= length pop -> Forall (in_box b) pop -> exists d, dnew lv x pop = Some d /\ good d;
  dc_step : forall x d, good d -> exists d', dstep x d = Some d' /\ good d' /\ ready d';
  dc_final : forall x d, good d -> ready d -> exists d' pop dels, dfinal x d = Some (d', pop) /\ good d' /\ Forall (in_box b) pop /\
               ddelegates d' = Some dels /\ Forall (in_box b) dels
}.
(** Lists long enough for the three levels, and no more levels than that. *)
Definition sound_config (C : config) : Prop :=
  valid_box (dims C) /\ max_level C <= 2 /\ 3 <= length (metaepoch_lens C) /\ 3 <= length (cost_modifiers C) /\ 3 <= length (min_dists C) /\
  3 <= length (population_sizes C) /\ 3 <= length (mutation_rates C).
(** Every level's populations have at least [least] members (a sprout's population has at least one). *)
Definition big_enough (least : nat) (C : config) : Prop := forall size, In size (population_sizes C) -> least <= Nat.max 1 size.
(** Every metaepoch makes at least one step. *)
Definition makes_steps (C : config) : Prop := forall len, In len (metaepoch_lens C) -> 1 <= len.
