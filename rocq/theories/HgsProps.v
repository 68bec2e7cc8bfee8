(** C50-C54, C57, C92-C93: classic HGS, for every nested driver (its constructor, step, finalized population, cost and
    delegates are arbitrary and may raise), every configuration and every random draw. *)
From Verif Require Import Spec Base VarModel HgsModel HgsSpec HgsProofs HgsTrimProofs HgsFacts NsgaModel NsgaProofs NsgaProps HgsNsgaModel HgsTotal.
From Coq Require Import QArith.
Local Open Scope nat_scope.

Section Hgs.
  Variables drv draw : Type.
  Variable dnew : nat -> draw -> list vec -> option drv.
  Variable dstep : draw -> drv -> option drv.
  Variable dcost : drv -> Z.
  Variable dfinal : draw -> drv -> option (drv * list vec).
  Variable ddelegates : drv -> option (list vec).
  Variable hv_of : list vec -> Q.
  Variable raw : Z -> Z -> Z -> Z -> Z.
  Variable EPSILON : Q.
  Variable C : config.
  Notation reachable := (reachable dnew dstep dcost dfinal ddelegates hv_of raw EPSILON C).
  Notation hgs_step := (hgs_step drv draw dnew dstep dcost dfinal ddelegates hv_of raw EPSILON C).
  Notation hgs_run := (hgs_run drv draw dnew dstep dcost dfinal ddelegates hv_of raw EPSILON C).
  Notation run_metaepoch := (run_metaepoch drv draw dstep dcost dfinal ddelegates hv_of C).
  Notation trim_sprouts := (trim_sprouts drv EPSILON C).
  Notation trim_redundant := (trim_redundant drv C).
  Notation release := (release_new_sprouts drv draw dnew raw C (4 + max_level C)).
  Notation revive_root := (revive_root drv).
  Implicit Types s t : hgs drv.

  (** C50 *)
  Theorem C50_tree_well_formed s : reachable s -> well_formed (max_level C) s.
  Proof. intros R. apply (reach_inv _ _ _ _ _ _ _ _ _ _ _ s R). Qed.

  (** ... and it only grows: a step keeps every node, its level and its sprouts, in place. *)
  Theorem C50_nodes_persist s D s' : reachable s -> hgs_step s D = Ok s' -> forall i n, node_at s i n ->
    exists n' ks, node_at s' i n' /\ level n' = level n /\ sprouts n' = sprouts n ++ ks /\ Forall (fun k => length (nodes s) <= k) ks.
  Proof. apply persist. Qed.

  (** C51 - from what a step released ... *)
  Theorem C51_sprouting_limits s D s' : reachable s -> hgs_step s D = Ok s' ->
    forall i n n' ks, node_at s i n -> node_at s' i n' -> sprouts n' = sprouts n ++ ks ->
      length ks <= sproutiveness C /\
      (ks <> [] -> ripe n' = true /\ level n' < max_level C /\ alive_sprouts_of s' n' <= max_sprouts_no C).
  Proof. apply limits. Qed.

  (** ... to exactly which delegates it sprouted: those [chosen], in order, at the nodes reached from the root through ripe nodes. *)
  Theorem C51_release_exactly s D s1 s2 s3 s' : reachable s ->
    run_metaepoch D s = Ok s1 -> trim_sprouts s1 = Ok s2 -> release D s2 0 = Ok s3 -> revive_root s3 = Ok s' ->
    hgs_step s D = Ok s' /\
    forall j n, node_at s2 j n -> exists ks, node_at s3 j (with_sprouts n (sprouts n ++ ks)) /\
      (reached s2 0 j -> Forall2 (seeded dnew raw C s3 (S (level n))) ks (chosen C s2 n)) /\
      (~ reached s2 0 j -> ks = []).
  Proof.
    intros R E1 E2 E3 E4. split.
    - unfold HgsModel.hgs_step. rewrite E1. cbn [bind]. rewrite E2. cbn [bind]. rewrite E3. exact E4.
    - eapply release_story, stages_of; eassumption.
  Qed.

  (** C52 *)
  Theorem C52_cost_is_weighted_sum s : reachable s -> (hcost s == weighted C (nodes s))%Q.
  Proof. apply cost_sum. Qed.
  Theorem C52_step_cost s D s' : reachable s -> hgs_step s D = Ok s' -> (hcost s' == hcost s + weighted_growth C (nodes s) (nodes s'))%Q.
  Proof. apply cost_step. Qed.
  Theorem C52_dead_nodes_are_not_run s D s' : reachable s -> hgs_step s D = Ok s' ->
    forall i n n', node_at s i n -> node_at s' i n' ->
      if alive n
      then exists len n1, nth_error (metaepoch_lens C) (level n) = Some len /\
             after_metaepoch dstep dcost dfinal ddelegates hv_of len n n1 /\ same_work n1 n'
      else same_work n n'.
  Proof. apply work. Qed.

  (** C53 *)
  Theorem C53_some_node_alive s : reachable s -> some_alive s.
  Proof. intros R. apply (reach_inv _ _ _ _ _ _ _ _ _ _ _ s R). Qed.
  Theorem C53_step_returns_or_raises s D : reachable s -> hgs_step s D <> NoFuel.
  Proof. apply no_fuel. Qed.
  (** Only stagnating nodes ripen; they do unless the whole tree died and was revived, at halved ratios. *)
  Theorem C53_ripe_means_stagnated s D s' : reachable s -> hgs_step s D = Ok s' ->
    forall i n n', node_at s i n -> node_at s' i n' -> alive n = true ->
      (ripe n' = true -> stagnates EPSILON (min_progress_ratio s) n') /\
      (stagnates EPSILON (min_progress_ratio s) n' ->
         ripe n' = true \/ (alive n' = true /\ halve3 (min_progress_ratio s) = Ok (min_progress_ratio s'))).
  Proof. apply ripening. Qed.
  (** A node that is dead and not ripe was redundant: it stays dead, and its results stay. *)
  Theorem C53_redundant_stay_dead Ds s s' : reachable s -> hgs_run Ds s = Ok s' ->
    forall i n n', node_at s i n -> node_at s' i n' -> alive n = false -> ripe n = false ->
      alive n' = false /\ ripe n' = false /\ same_work n n'.
  Proof. apply dead_stays_run. Qed.
  Theorem C53_ripe_is_dead s i n : reachable s -> node_at s i n -> ripe n = true -> alive n = false.
  Proof. apply ripe_dead. Qed.
  Theorem C53_revival s s' : revive_root s = Ok s' ->
    (some_alive s -> s' = s) /\
    (~ some_alive s -> length (nodes s') = length (nodes s) /\ forall i n n', node_at s i n -> node_at s' i n' ->
       alive n' = ripe n /\ ripe n' = false /\ level n' = level n /\ sprouts n' = sprouts n /\ center n' = center n /\ same_work n n') /\
    (~ some_alive s -> exists a b c r, min_progress_ratio s = a :: b :: c :: r /\ min_progress_ratio s' = (a / 2 :: b / 2 :: c / 2 :: r)%Q).
  Proof. exact (revive_spec drv C s s'). Qed.
  Theorem C53_ratios s D s' : reachable s -> hgs_step s D = Ok s' ->
    min_progress_ratio s' = min_progress_ratio s \/
    exists a b c r, min_progress_ratio s = a :: b :: c :: r /\ min_progress_ratio s' = (a / 2 :: b / 2 :: c / 2 :: r)%Q.
  Proof. apply ratios. Qed.

  (** C54 - trim_redundant on any list of nodes (in creation order, dead ones with a centre). *)
  Theorem C54_trim_redundant ids s s' : StronglySorted lt ids ->
    (forall i, In i ids -> exists n, node_at s i n /\ level n < 3 /\ (alive n = true \/ center n <> Missing)) ->
    trim_redundant ids s = Ok s' ->
    length (nodes s') = length (nodes s) /\
    (forall i n, node_at s i n -> ~ In i ids -> node_at s' i n) /\
    (forall i n n', In i ids -> node_at s i n -> node_at s' i n' ->
       same_work n n' /\ level n' = level n /\ sprouts n' = sprouts n /\ ripe n' = ripe n /\
       (alive n = false -> n' = n) /\ (alive n = true -> center n' = mean (population n))) /\
    (forall i n n', In i ids -> node_at s i n -> alive n = true -> node_at s' i n' ->
       (alive n' = false <->
        exists j m0 m md, In j ids /\ node_at s j m0 /\ node_at s' j m /\
          ((alive m0 = false /\ ripe m = true) \/ (alive m0 = true /\ j < i)) /\
          nth_error (min_dists C) (level n') = Some md /\ near md (center m) (center n'))).
  Proof.
    intros So H E. destruct (wp_Ok _ _ s' (trim_redundant_ok drv C True (or_introl I) ids s So H) E) as ((Le & Ln & Mp & Pw) & _ & Rule).
    split; [exact Le|]. split; [|split; [|exact Rule]].
    - intros i n Hn Ni. destruct (Pw i n Hn) as (n' & Hn' & _ & Eq). now rewrite (Eq Ni) in Hn'.
    - intros i n n' Hi Hn Hn'. destruct (Pw i n Hn) as (x & Hx & R & _). assert (x = n') by (unfold node_at in *; congruence). subst x. specialize (R Hi).
      unfold recentred in R. unfold same_work. destruct (alive n) eqn:A; [unfold centred in R; rewrite R; cbn; intuition congruence | subst n'; intuition congruence].
  Qed.

  (** In a step: the nodes still alive after trimming are apart from each other and from the ripe nodes of their level, ... *)
  Theorem C54_survivors_apart s D s1 s2 : reachable s -> run_metaepoch D s = Ok s1 -> trim_sprouts s1 = Ok s2 -> (exists s', hgs_step s D = Ok s') ->
    forall i j n m md, node_at s2 i n -> node_at s2 j m -> i <> j -> level n = level m -> alive n = true -> alive m = true \/ ripe m = true ->
      nth_error (min_dists C) (level n) = Some md -> ~ near md (center n) (center m).
  Proof. apply apart. Qed.

  (** ... the nodes that died are those that stagnate or are crowded: by a ripe node, or by an older node that was alive, ... *)
  Theorem C54_killed_exactly s D s1 s2 : reachable s -> run_metaepoch D s = Ok s1 -> trim_sprouts s1 = Ok s2 -> (exists s', hgs_step s D = Ok s') ->
    forall i n n', node_at s1 i n -> alive n = true -> node_at s2 i n' ->
      (alive n' = true <-> ~ stagnates EPSILON (min_progress_ratio s1) n /\ ~ crowded C s1 s2 i n').
  Proof.
    intros R E1 E2 (s' & H) i n n' Hn A Hn'. destruct (reach_stages _ _ _ _ _ _ _ _ _ _ _ s D s' R H) as (t1 & t2 & s3 & St).
    destruct (HgsRunProofs.st_run St) as (F1 & F2 & _). assert (t1 = s1) by congruence. subst t1. assert (t2 = s2) by congruence. subst t2.
    exact (HgsRunProofs.st_rule St (level n) i n n' Hn eq_refl A Hn').
  Qed.
  (** ... so the first alive node of a level survives if it progresses and no node of the level is ripe, ... *)
  Theorem C54_first_survives s D s1 s2 : reachable s -> run_metaepoch D s = Ok s1 -> trim_sprouts s1 = Ok s2 -> (exists s', hgs_step s D = Ok s') ->
    forall i n n', node_at s1 i n -> alive n = true -> node_at s2 i n' ->
      (forall j m, node_at s1 j m -> level m = level n -> j < i -> alive m = false) ->
      (forall j m, node_at s2 j m -> level m = level n -> ripe m = false) -> alive n' = true.
  Proof.
    intros R E1 E2 Ex i n n' Hn A Hn' First NoRipe. destruct Ex as (s' & H). destruct (reach_stages _ _ _ _ _ _ _ _ _ _ _ s D s' R H) as (t1 & t2 & s3 & St).
    destruct (HgsRunProofs.st_run St) as (F1 & F2 & _). assert (t1 = s1) by congruence. subst t1. assert (t2 = s2) by congruence. subst t2.
    destruct (HgsRunProofs.st_trim St) as (_ & _ & _ & Pt). assert (T : forall j x y, node_at s1 j x -> node_at s2 j y -> trimmed drv EPSILON (min_progress_ratio s1) x y).
    { intros j x y Hx Hy. destruct (Pt j x Hx) as (z & Hz & Q & _). assert (z = y) by (unfold node_at in *; congruence). subst. auto. }
    assert (Ti := T i n n' Hn Hn'). destruct (trimmed_same drv EPSILON _ _ _ Ti) as (L & _).
    apply (HgsRunProofs.st_rule St (level n) i n n' Hn eq_refl A Hn'). split.
    - intros Sg. unfold trimmed in Ti. rewrite A in Ti. destruct Ti as (_ & _ & X). apply X in Sg. rewrite (NoRipe i n' Hn' L) in Sg. discriminate.
    - intros (j & m0 & m & md & Hm0 & Lm & Hm & Or & _). destruct (trimmed_same drv EPSILON _ _ _ (T j m0 m Hm0 Hm)) as (Lm' & _). destruct Or as [Rp|(Am & Lt)].
      + rewrite (NoRipe j m Hm) in Rp by congruence. discriminate.
      + rewrite (First j m0 Hm0) in Am by (congruence || assumption). discriminate.
  Qed.
  (** ... where every centre is the mean of the node's population. *)
  Theorem C54_centres_are_means s D s1 s2 : reachable s -> run_metaepoch D s = Ok s1 -> trim_sprouts s1 = Ok s2 -> (exists s', hgs_step s D = Ok s') ->
    forall i n d, node_at s2 i n -> population n <> [] -> (forall v, In v (population n) -> length v = d) -> exists c, center n = At c /\ is_mean (population n) c.
  Proof.
    intros R E1 E2 (s' & H) i n d Hn Ne L. destruct (reach_stages _ _ _ _ _ _ _ _ _ _ _ s D s' R H) as (t1 & t2 & s3 & St).
    destruct (HgsRunProofs.st_run St) as (F1 & F2 & _). assert (t1 = s1) by congruence. subst t1. assert (t2 = s2) by congruence. subst t2.
    destruct (HgsRunProofs.st_center St i n Hn) as (_ & ->). exact (mean_is_mean _ d Ne L).
  Qed.

  (** C57 *)
  Theorem C57_concatenation s : finalized_population drv s = concat (map population (nodes s)).
  Proof. apply merged. Qed.
  (** Every population in it is what the node's driver last returned: kept while the node is dead, renewed by each metaepoch. *)
  Theorem C57_populations s D s' : reachable s -> hgs_step s D = Ok s' -> forall i n n', node_at s i n -> node_at s' i n' ->
    if alive n then exists fd d, dfinal fd d = Some (driver n', population n') else population n' = population n.
  Proof.
    intros R H i n n' Hn Hn'. pose proof (work _ _ _ _ _ _ _ _ _ _ _ s D s' R H i n n' Hn Hn') as W. destruct (alive n).
    - destruct W as (len & n1 & _ & M & (Dr & Po & _)). destruct (am_run _ _ _ _ _ _ _ _ M) as (ds & d & fd & dels & _ & _ & F & _). exists fd, d. rewrite Dr, Po. exact F.
    - apply W.
  Qed.

  (** C92 - a node cannot ripen in its first two metaepochs. *)
  Theorem C92_grace_period s D1 s1 D2 s2 : reachable s -> hgs_step s D1 = Ok s1 -> hgs_step s1 D2 = Ok s2 ->
    forall i n n1 n2 lv, node_at s i n -> brand_new lv n -> node_at s1 i n1 -> node_at s2 i n2 -> ripe n1 = false /\ ripe n2 = false.
  Proof. apply young. Qed.

  (** C93 - every node a step adds is a sprout of an older, ripe node, seeded with one of its delegates, which is not near
      the centre of any node of its level that has run. *)
  Theorem C93_new_nodes_explore s D s' : reachable s -> hgs_step s D = Ok s' ->
    forall k n', node_at s' k n' -> length (nodes s) <= k ->
    exists p m delegate, node_at s' p m /\ p < length (nodes s) /\ In k (sprouts m) /\ ripe m = true /\ In delegate (delegates m) /\
      seeded dnew raw C s' (S (level m)) k delegate /\
      forall j mj md, node_at s' j mj -> level mj = S (level m) -> population mj <> [] -> nth_error (min_dists C) (S (level m)) = Some md ->
        ~ near md (At (map inject_Z delegate)) (center mj).
  Proof. apply newcomers. Qed.
End Hgs.

(** C94 - HGS never raises, and every population and delegate is within the bounds, if its configuration has three entries
    per list, its populations are as large as its drivers need, and its drivers keep their contract. *)
Theorem C94_never_raises (drv draw : Type) (dnew : nat -> draw -> list vec -> option drv) dstep dcost dfinal ddelegates hv_of raw EPSILON C least good ready :
  driver_contract dnew dstep dfinal ddelegates (dims C) least good ready -> sound_config C -> big_enough least C ->
  (forall d, good d -> ready d) \/ makes_steps C ->
  forall sampling d mpr pop Ds, 3 <= length mpr -> Forall (in_box (dims C)) pop ->
  (forall size, nth_error (population_sizes C) 0 = Some size -> 1 <= size <= length pop) ->
  exists s0 s, hgs_init drv draw dnew C sampling d mpr pop = Ok s0 /\
    hgs_run drv draw dnew dstep dcost dfinal ddelegates hv_of raw EPSILON C Ds s0 = Ok s /\
    forall i n, node_at s i n -> good (driver n) /\ Forall (in_box (dims C)) (population n) /\ Forall (in_box (dims C)) (delegates n).
Proof. intros K S B R. intros. now apply (total_run _ _ _ _ _ _ _ _ _ _ _ least good ready). Qed.

(** NSGA-II keeps it, ... *)
Theorem C94_nsgaii_keeps_contract P mating :
  valid_box (p_dims P) -> (forall v, in_box (p_dims P) v -> in_box (p_dims P) (p_trim P v)) -> (forall v, length (p_f P v) = p_m P) ->
  (0 <= p_epsilon P)%Z -> (0 < p_eps P)%Q -> (forall x l, Permutation (p_iter P x l) l) ->
  exists good, driver_contract (nd_new P mating) (nd_step P) (nd_final P) nd_delegates (p_dims P) 0 good (fun _ => True).
Proof. intros. exists (nd_good P). now apply nsga_contract. Qed.

(** ... so HGS over NSGA-II never raises and its finalized population is within the bounds. *)
Theorem C94_hgs_over_nsgaii P mating hv_of raw EPSILON C :
  valid_box (p_dims P) -> (forall v, in_box (p_dims P) v -> in_box (p_dims P) (p_trim P v)) -> (forall v, length (p_f P v) = p_m P) ->
  (0 <= p_epsilon P)%Z -> (0 < p_eps P)%Q -> (forall x l, Permutation (p_iter P x l) l) ->
  sound_config C -> dims C = p_dims P ->
  forall sampling d mpr pop Ds, 3 <= length mpr -> Forall (in_box (dims C)) pop ->
  (forall size, nth_error (population_sizes C) 0 = Some size -> 1 <= size <= length pop) ->
  exists s0 s, hgs_init nd _ (nd_new P mating) C sampling d mpr pop = Ok s0 /\
    hgs_run nd _ (nd_new P mating) (nd_step P) (fun d => Z.of_nat (cost (fst d))) (nd_final P) nd_delegates hv_of raw EPSILON C Ds s0 = Ok s /\
    Forall (in_box (dims C)) (finalized_population nd s).
Proof.
  intros H1 H2 H3 H4 H5 H6 Cf Ed. intros. pose proof (nsga_contract P mating H1 H2 H3 H4 H5 H6) as K. rewrite <- Ed in K.
  destruct (total_run _ _ _ _ (fun d => Z.of_nat (cost (fst d))) _ _ hv_of raw EPSILON C _ _ _ K Cf ltac:(intros ? ?; lia) ltac:(left; intros; exact I) sampling d mpr pop Ds) as (s0 & s & E0 & E & F); try assumption.
  exists s0, s. split; [exact E0|]. split; [exact E|]. rewrite merged. apply Forall_concat, Forall_map, Forall_forall. intros n Hn. apply In_nth_error in Hn. destruct Hn as (i & Hi). apply (F i n Hi).
Qed.

Print Assumptions C50_tree_well_formed. Print Assumptions C50_nodes_persist. Print Assumptions C51_sprouting_limits.
Print Assumptions C51_release_exactly. Print Assumptions C52_cost_is_weighted_sum. Print Assumptions C52_step_cost.
Print Assumptions C52_dead_nodes_are_not_run. Print Assumptions C53_some_node_alive. Print Assumptions C53_step_returns_or_raises.
Print Assumptions C53_ripe_means_stagnated. Print Assumptions C53_redundant_stay_dead. Print Assumptions C53_ripe_is_dead.
Print Assumptions C53_revival. Print Assumptions C53_ratios. Print Assumptions C54_trim_redundant. Print Assumptions C54_survivors_apart.
Print Assumptions C54_killed_exactly. Print Assumptions C54_first_survives. Print Assumptions C54_centres_are_means.
Print Assumptions C57_concatenation. Print Assumptions C57_populations. Print Assumptions C92_grace_period.
Print Assumptions C93_new_nodes_explore. Print Assumptions C94_never_raises. Print Assumptions C94_nsgaii_keeps_contract.
Print Assumptions C94_hgs_over_nsgaii.

(** ---- Concrete runs: a toy driver that shifts its points and charges one evaluation per point and step. ---- *)
Definition toy_new (lv : nat) (_ : Z) (pop : list vec) : option (Z * list vec) := Some (0%Z, pop).
Definition toy_step (x : Z) (d : Z * list vec) : option (Z * list vec) := Some ((fst d + Z.of_nat (length (snd d)))%Z, map (map (Z.add x)) (snd d)).
Definition toy_final (_ : Z) (d : Z * list vec) : option ((Z * list vec) * list vec) := Some (d, snd d).
Definition toy_delegates (d : Z * list vec) : option (list vec) := Some (snd d).
Definition toy_hv (p : list vec) : Q := inject_Z (fold_right Z.add 0%Z (concat p)).
Definition toy_raw (_ _ y r : Z) : Z := (y + r)%Z.
Definition toy_cfg (top : nat) : config :=
  {| dims := [(0, 100)]%Z; cost_modifiers := [1; 1#2; 1#4]%Q; min_dists := [10; 5; 2]%Q; metaepoch_lens := [2; 1; 1]; max_level := top;
     max_sprouts_no := 3; sproutiveness := 2; population_sizes := [3; 2; 1]; mutation_rates := [5; 5; 5]%Z |}.
Definition toy_draws (x : nat -> Z) : HgsModel.step_draws Z :=
  {| in_metaepoch := fun i _ => x i; in_finish := fun _ => 0%Z; in_shuffle := fun _ k => k; in_constructor := fun _ => 0%Z;
     in_mutation := fun _ k => ((fun _ => 0%Z), (fun _ => 3%Z)) |}.
Definition toy_init top := hgs_init _ _ toy_new (toy_cfg top) (fun _ => 0) 0%Z [1#10; 1#10; 1#10]%Q [[10]; [20]; [30]; [40]]%Z.
Definition toy_one top (s : hgs (Z * list vec)) (x : nat -> Z) :=
  hgs_step _ _ toy_new toy_step fst toy_final toy_delegates toy_hv toy_raw (1#1000) (toy_cfg top) s (toy_draws x).
Definition toy_run top xs := do s <- toy_init top; fold_ok (toy_one top) xs s.
Definition look {A} (f : node (Z * list vec) -> A) (o : outcome (hgs (Z * list vec))) : list A :=
  match o with Ok s => map f (nodes s) | _ => [] end.
Definition all_by (x : Z) : nat -> Z := fun _ => x.
Definition second_by (x : Z) : nat -> Z := fun i => if i =? 2 then x else 1%Z.

Lemma toy_run_reachable top xs s : toy_run top xs = Ok s ->
  reachable toy_new toy_step fst toy_final toy_delegates toy_hv toy_raw (1#1000) (toy_cfg top) s.
Proof.
  unfold toy_run. destruct (toy_init top) as [s0| |] eqn:E; cbn [bind]; try discriminate. intros H.
  exists (fun _ => 0), 0%Z, [1#10; 1#10; 1#10]%Q, [[10]; [20]; [30]; [40]]%Z, (map toy_draws xs), s0. split; [exact E|]. clear E. revert s0 H.
  induction xs as [|x xs IH]; intros s0 H; [exact H|]. cbn [fold_ok map] in *. unfold hgs_run. cbn [fold_ok]. unfold toy_one in H at 1. destruct (hgs_step _ _ _ _ _ _ _ _ _ _ _ _ _) as [s1| |]; cbn [bind] in *; try discriminate. apply IH. exact H.
Qed.

(** Three metaepochs: the root stagnates in the third one (never before: C92), ripens, and sprouts its first two delegates
    (C51: sproutiveness 2); in the next steps it sprouts a third and then has its three (max_sprouts_no), its sprouts ripen
    and sprout in turn, down to level 2 and no further. *)
Example C50_example :
  look ripe (toy_run 2 [all_by 1; all_by 1]) = [false] /\
  look sprouts (toy_run 2 [all_by 1; all_by 1; all_by 0]) = [[1; 2]; []; []] /\
  look sprouts (toy_run 2 [all_by 1; all_by 1; all_by 0; all_by 0; all_by 1; all_by 0; all_by 0]) = [[1; 2; 3]; [4; 5]; [6; 7]; []; []; []; []; []] /\
  look level (toy_run 2 [all_by 1; all_by 1; all_by 0; all_by 0; all_by 1; all_by 0; all_by 0]) = [0; 1; 1; 1; 2; 2; 2; 2] /\
  look alive (toy_run 2 [all_by 1; all_by 1; all_by 0; all_by 0; all_by 1; all_by 0; all_by 0]) = [false; false; false; true; true; true; true; true] /\
  exists s, toy_run 2 [all_by 1; all_by 1; all_by 0; all_by 0; all_by 1; all_by 0; all_by 0] = Ok s /\ (hcost s == 28)%Q /\
    finalized_population _ s = [[14]; [24]; [34]; [15]; [18]; [25]; [28]; [35]; [38]; [15]; [18]; [25]; [28]]%Z.
Proof. repeat (split; [vm_compute; reflexivity|]). eexists. split; [vm_compute; reflexivity|]. split; reflexivity. Qed.

(** With no level below the root it is revived instead, at half the ratios (C53). *)
Example C53_example :
  look alive (toy_run 0 [all_by 1; all_by 1; all_by 0]) = [true] /\
  exists s, toy_run 0 [all_by 1; all_by 1; all_by 0] = Ok s /\ min_progress_ratio s = [1#20; 1#20; 1#20]%Q.
Proof. split; [vm_compute; reflexivity|]. eexists. split; vm_compute; reflexivity. Qed.

(** The second sprout wanders to the first: it is killed, not ripe, and stays so (C53, C54). *)
Example C54_example :
  look center (toy_run 2 [all_by 1; all_by 1; all_by 0; second_by (-8)]) = [At [72#3]; At [33#2]; At [35#2]; Missing; Missing]%Q /\
  look alive (toy_run 2 [all_by 1; all_by 1; all_by 0; second_by (-8)]) = [false; true; false; true; true] /\
  look ripe (toy_run 2 [all_by 1; all_by 1; all_by 0; second_by (-8)]) = [true; false; false; false; false] /\
  look alive (toy_run 2 [all_by 1; all_by 1; all_by 0; second_by (-8); all_by 1; all_by 0; all_by 0]) = [false; false; false; true; true; true; true].
Proof. repeat split; vm_compute; reflexivity. Qed.

(** NSGA-II in HGS: the hypotheses of C94 hold and the tree grows. *)
Definition nsga_cfg : config :=
  {| dims := [(0, 10); (0, 10)]%Z; cost_modifiers := [1; 1#2; 1#4]%Q; min_dists := [1; 1; 1]%Q; metaepoch_lens := [1; 1; 1]; max_level := 2;
     max_sprouts_no := 3; sproutiveness := 2; population_sizes := [4; 2; 2]; mutation_rates := [5; 5; 5]%Z |}.
Definition nsga_draws : HgsModel.step_draws NsgaModel.step_draws :=
  {| in_metaepoch := fun _ _ => ex_draws; in_finish := fun _ => ex_draws; in_shuffle := fun _ k => k; in_constructor := fun _ => ex_draws;
     in_mutation := fun _ k => ((fun _ => 0%Z), (fun _ => 3%Z)) |}.
Example C94_example :
  sound_config nsga_cfg /\ dims nsga_cfg = p_dims ex_params /\ valid_box (p_dims ex_params) /\
  Forall (in_box (dims nsga_cfg)) [[1; 2]; [3; 4]; [9; 0]; [3; 9]]%Z /\
  (forall v, length (p_f ex_params v) = p_m ex_params) /\
  exists s, (do s0 <- hgs_init nd _ (nd_new ex_params (fun n => n / 2)) nsga_cfg (fun _ => 0) ex_draws [1#10; 1#10; 1#10]%Q [[1; 2]; [3; 4]; [9; 0]; [3; 9]]%Z;
             hgs_run nd _ (nd_new ex_params (fun n => n / 2)) (nd_step ex_params) (fun d => Z.of_nat (cost (fst d))) (nd_final ex_params) nd_delegates
               (fun p => inject_Z (fold_right Z.add 0%Z (concat p))) toy_raw (1#1000) nsga_cfg [nsga_draws; nsga_draws; nsga_draws] s0) = Ok s /\
    1 <= length (nodes s).
Proof.
  split; [unfold sound_config; cbn; repeat split; try lia; repeat constructor; simpl; lia|]. split; [reflexivity|].
  split; [repeat constructor; simpl; lia|]. split; [repeat constructor; simpl; lia|]. split; [reflexivity|].
  eexists. split; [vm_compute; reflexivity|]. cbn. lia.
Qed.
