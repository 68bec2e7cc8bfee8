(** Property theorems C26-C29: quality metrics. *)
From Verif Require Import Spec MetSpec DomModel MetModel MetProofs.
From Coq Require Import Reals QArith Lra.
Local Open Scope Z_scope.

(** C26 - the distance is the quadratic mean of the nearest distances. *)
Theorem C26_generational_distance_value :
  forall S P : list vec,
    S <> [] -> P <> [] -> (forall a b, In a S -> In b P -> length a = length b) ->
    exists ds, Forall2 (nearest P) S ds /\
      generational_distance S P = Some (sqrt (IZR (total ds) / INR (length S))).
Proof. exact distance_spec. Qed.
Print Assumptions C26_generational_distance_value.

Theorem C26_inverse_generational_distance_value :
  forall S P : list vec,
    S <> [] -> P <> [] -> (forall a b, In a P -> In b S -> length a = length b) ->
    exists ds, Forall2 (nearest S) P ds /\
      inverse_generational_distance S P = Some (sqrt (IZR (total ds) / INR (length P))).
Proof. intros S P H1 H2. exact (distance_spec P S H2 H1). Qed.
Print Assumptions C26_inverse_generational_distance_value.

Theorem C26_generational_distance_zero :
  forall (S P : list vec) (v : R),
    S <> [] -> P <> [] -> (forall a b, In a S -> In b P -> length a = length b) ->
    generational_distance S P = Some v -> (0 <= v)%R /\ (v = 0%R <-> forall s, In s S -> In s P).
Proof. exact distance_zero. Qed.
Print Assumptions C26_generational_distance_zero.

Theorem C26_inverse_generational_distance_zero :
  forall (S P : list vec) (v : R),
    S <> [] -> P <> [] -> (forall a b, In a P -> In b S -> length a = length b) ->
    inverse_generational_distance S P = Some v -> (0 <= v)%R /\ (v = 0%R <-> forall p, In p P -> In p S).
Proof. intros S P v H1 H2. exact (distance_zero P S v H2 H1). Qed.
Print Assumptions C26_inverse_generational_distance_zero.

Theorem C26_average_hausdorff_distance :
  forall solution nondominated pareto : list vec,
    solution <> [] -> nondominated <> [] -> pareto <> [] ->
    (forall a b, In a nondominated -> In b pareto -> length a = length b) ->
    (forall a b, In a pareto -> In b solution -> length a = length b) ->
    exists g i v, generational_distance nondominated pareto = Some g /\
      inverse_generational_distance solution pareto = Some i /\
      average_hausdorff_distance solution nondominated pareto = Some v /\ v = Rmax g i /\
      (v = 0%R <-> g = 0%R /\ i = 0%R).
Proof. exact hausdorff_spec. Qed.
Print Assumptions C26_average_hausdorff_distance.

Example C26_distances : generational_distance [[0; 0]; [3; 4]] [[0; 0]; [9; 9]] = Some (sqrt (25 / 2)) /\
  inverse_generational_distance [[0; 0]; [3; 4]] [[0; 0]; [9; 9]] = Some (sqrt (61 / 2)).
Proof.
  unfold generational_distance, inverse_generational_distance, distance. cbn.
  split; do 2 f_equal; lra.
Qed.

(** C27 - the roles of the two sets are exchanged: epsilon(solution, pareto) is the epsilon
    indicator of the Pareto front with respect to the solution. *)
Theorem C27_epsilon_of_exchanged_sets_partial :
  forall (dim : nat) (solution pareto : list vec),
    (0 < dim)%nat -> pareto <> [] -> solution <> [] ->
    (forall p, In p pareto -> length p = dim) -> (forall s, In s solution -> length s = dim) ->
    exists e, epsilon solution pareto = Some (Some e) /\ is_epsilon pareto solution e.
Proof. exact epsilon_swapped. Qed.
Print Assumptions C27_epsilon_of_exchanged_sets_partial.

(** What a user expects fails: with one solution point on the front but the rest of the front
    uncovered the reported value is 0, as for a perfect solution. *)
Theorem C27_epsilon_refuted :
  exists (solution pareto : list vec) (e : Z),
    epsilon solution pareto = Some (Some e) /\ ~ is_epsilon solution pareto e /\ is_epsilon solution pareto 5.
Proof.
  exists [[0; 5]], [[0; 5]; [5; 0]], 0. split; [reflexivity|]. split.
  - intros [H _]. destruct (H [5; 0]) as (a & [<-|[]] & Ha); [right; left; reflexivity|].
    inversion Ha as [|? ? ? ? _ Ha']. inversion Ha'. lia.
  - split.
    + intros b [<-|[<-|[]]]; exists [0; 5]; (split; [left; reflexivity|]); repeat constructor; lia.
    + intros e' H. destruct (H [5; 0]) as (a & [<-|[]] & Ha); [right; left; reflexivity|].
      inversion Ha as [|? ? ? ? _ Ha']. inversion Ha'. lia.
Qed.
Print Assumptions C27_epsilon_refuted.

Example C27_value : epsilon [[3; 15]] [[0; 10]; [10; 0]; [10; 10]] = Some (Some (-3)) /\ epsilon [] [[1]] = Some None.
Proof. split; reflexivity. Qed.

(** C28 *)
Theorem C28_non_domination_ratio :
  forall (d : nat) (solution : list vec),
    all_dim d (fun v => v) solution -> solution <> [] ->
    exists q, non_domination_ratio solution (filter_not_dominated (fun v => v) solution) = Some q /\
      (0 < q <= 1)%Q /\ ((q == 1)%Q <-> forall x, In x solution -> nondominated_in (fun v => v) solution x).
Proof. exact non_domination_ratio_spec. Qed.
Print Assumptions C28_non_domination_ratio.

(** For solutions without repeated vectors. *)
Theorem C28_pareto_dominance_indicator_partial :
  forall (d : nat) (sols : list (list vec)) (sol : list vec),
    all_dim d (fun v => v) (concat sols) -> In sol sols -> concat sols <> [] -> NoDup sol ->
    exists q, pdi_of_result sol sols = Some q /\ (0 <= q <= 1)%Q /\
      ((q == 1)%Q <-> forall v, In v (concat sols) -> nondominated_in (fun v => v) (concat sols) v -> In v sol) /\
      ((0 < q)%Q <-> exists v, In v sol /\ nondominated_in (fun v => v) (concat sols) v).
Proof. exact pdi_spec. Qed.
Print Assumptions C28_pareto_dominance_indicator_partial.

(** With repeated vectors the indicator exceeds 1. *)
Theorem C28_pareto_dominance_indicator_refuted :
  exists (sols : list (list vec)) (sol : list vec) (q : Q),
    In sol sols /\ all_dim 2 (fun v => v) (concat sols) /\ pdi_of_result sol sols = Some q /\ (1 < q)%Q.
Proof.
  exists [[[1; 2]; [1; 2]; [3; 3]]; [[2; 5]]], [[1; 2]; [1; 2]; [3; 3]]. eexists.
  split; [left; reflexivity|]. split.
  { intros v Hv. cbn in Hv. intuition (subst; reflexivity). }
  split; [reflexivity|]. reflexivity.
Qed.
Print Assumptions C28_pareto_dominance_indicator_refuted.

Example C28_values :
  non_domination_ratio [[1; 4]; [2; 2]; [3; 3]; [5; 5]] (filter_not_dominated (fun v => v) [[1; 4]; [2; 2]; [3; 3]; [5; 5]]) = Some (2 # 4)%Q /\
  pdi_of_result [[1; 4]; [3; 3]] [[[1; 4]; [3; 3]]; [[2; 2]; [0; 9]]] = Some (1 # 3)%Q.
Proof. split; reflexivity. Qed.

(** C29 *)
Theorem C29_spacing :
  forall (eps : R) (dims : nat) (l : list vec),
    (0 < eps)%R -> (forall v, In v l -> length v = dims) -> (2 <= length l)%nat ->
    exists ms v, length ms = length l /\ (forall i d, nth_error ms i = Some d -> nearest_other l i d) /\
      spacing eps l = Some v /\ v = sqrt (deviations ms / (INR (length l) - 1 + eps)) /\
      (0 <= v)%R /\ (v = 0%R <-> forall d d', In d ms -> In d' ms -> d = d').
Proof. exact spacing_spec. Qed.
Print Assumptions C29_spacing.

Theorem C29_spacing_of_one_point : forall (eps : R) (v : vec), spacing eps [v] = Some 0%R.
Proof. exact spacing_single. Qed.
Print Assumptions C29_spacing_of_one_point.

Theorem C29_extent :
  forall (dims : nat) (l : list vec), l <> [] -> (forall v, In v l -> length v = dims) ->
    exists ws, length ws = dims /\ (forall k w, nth_error ws k = Some w -> width l k w) /\
      extent l = Some (sqrt (IZR (total ws))).
Proof. exact extent_spec. Qed.
Print Assumptions C29_extent.

Theorem C29_extent_monotone :
  forall (dims : nat) (l l' : list vec) (v v' : R),
    l <> [] -> (forall x, In x l' -> length x = dims) -> incl l l' ->
    extent l = Some v -> extent l' = Some v' -> (0 <= v <= v')%R.
Proof. exact extent_mono. Qed.
Print Assumptions C29_extent_monotone.

(** The share of ordered pairs of positions whose points are further apart than sigma. *)
Theorem C29_distribution :
  forall (dims : nat) (sigma : R) (l : list vec), (2 <= length l)%nat -> (forall x, In x l -> length x = dims) ->
    exists v (pairs : list (nat * nat)), distribution sigma l = Some v /\
      v = (INR (length pairs) / (INR (length l) * (INR (length l) - 1)))%R /\ NoDup pairs /\
      (forall i j, In (i, j) pairs <->
         exists x y, nth_error l i = Some x /\ nth_error l j = Some y /\ far_apart sigma x y).
Proof. exact distribution_exact. Qed.
Print Assumptions C29_distribution.

Theorem C29_distribution_range :
  forall (sigma : R) (l : list vec), (0 <= sigma)%R -> (2 <= length l)%nat ->
    exists v, distribution sigma l = Some v /\ (0 <= v <= 1)%R.
Proof. intros sigma l H1 H2. destruct (distribution_spec sigma l H1 H2) as (v & E & H & _). exists v. auto. Qed.
Print Assumptions C29_distribution_range.

Theorem C29_distribution_infinite :
  forall (sigma : R) (l : list vec), (length l <= 1)%nat -> distribution sigma l = None.
Proof. exact distribution_infinite. Qed.
Print Assumptions C29_distribution_infinite.

Example C29_values : extent [[0; 0]; [3; 4]; [1; 6]] = Some (sqrt 9) /\
  min_distances [[0; 0]; [3; 4]; [1; 6]] 2 = Some [7; 4; 4].
Proof. split; reflexivity. Qed.
