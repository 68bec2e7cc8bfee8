(** C58-C63, C95: distributed HGS.  For every nested driver, every random draw, every history of requests and every order in which
    the actors' mail arrives.  [life pc c]: the system can be in state [c] when step() is about to make its pc-th request;
    [served k p c P]: the request [p] made in [c] raises nothing and is answered, once, with [P] true of the answer and the state;
    [dtree c ns]: the nodes of [c] are [ns], and the supervisor's lists describe them. *)
From Verif Require Import Spec Base VarModel VarProofs HgsModel HgsSpec HgsProofs DhgsModel DhgsSpec DhgsNet DhgsGather DhgsOps DhgsRelease DhgsPhase DhgsLife DhgsFacts DhgsCost.
From Coq Require Import QArith Permutation Sorted.
Local Open Scope nat_scope.

Section Dhgs.
  Variables drv draw : Type.
  Variable dnew : nat -> draw -> list vec -> drv.
  Variable dstep : draw -> drv -> drv.
  Variable dcost : drv -> Z.
  Variable dfinal : draw -> drv -> drv * list vec.
  Variable ddelegates : drv -> list vec.
  Variable hv_of : list vec -> Q.
  Variable EPSILON : Q.
  Variable C : config.
  Variable W : nat -> nat -> ndraws draw.
  Variable Wnew : nat -> draw.
  Notation system := (system drv).
  Notation served := (served dnew dstep dcost dfinal ddelegates hv_of EPSILON C W Wnew).
  Notation answered := (answered dnew dstep dcost dfinal ddelegates hv_of EPSILON C W Wnew).
  Notation life := (life dnew dstep dcost dfinal ddelegates hv_of EPSILON C W Wnew).
  Notation dtree := (dtree dnew C Wnew).
  Notation turns := (turns dnew C Wnew).
  Notation serve := (serve dnew dstep dcost dfinal ddelegates hv_of EPSILON C W Wnew).
  Notation life_state := (life_state dnew dstep dcost dfinal ddelegates hv_of EPSILON C W Wnew).
  Notation sup c := (c_sup drv c).
  Implicit Types (c : system) (ns : list (node drv)).

  Hypothesis Htop : max_level C <= 2.
  Hypothesis Hlen : forall l, l <= max_level C -> 0 < nth l (metaepoch_lens C) 0.

  (** C58 - every living node runs its metaepoch, the cost grows by the largest weighted cost of those, and the answer carries it. *)
  Theorem C58_metaepoch_every_schedule c k : life 0 c -> exists ns, dtree c ns /\
    served k HNewMetaepoch c (fun a c' => exists ns' m, dtree c' ns' /\ length ns' = length ns /\
      (forall i n, nth_error ns i = Some n -> exists n', nth_error ns' i = Some n' /\ ran dstep dcost dfinal ddelegates hv_of C n n') /\
      a = HMetaepochEnd (s_cost (sup c')) /\ s_cost (sup c') = (s_cost (sup c) + m)%Q /\
      (exists i n n', nth_error ns i = Some n /\ nth_error ns' i = Some n' /\ alive n = true /\ m = weighted_cost C n n') /\
      (forall i n n', nth_error ns i = Some n -> nth_error ns' i = Some n' -> alive n = true -> (weighted_cost C n n' <= m)%Q)).
  Proof.
    intros L. destruct (life_state Htop Hlen _ _ L) as (ns & R & St). pose proof St as (Cm & Iv & _). exists ns. split; [eapply calm_tree; eauto|].
    eapply serve; [eapply metaepoch_life; eauto|]. intros c' (ns' & (Cm' & Iv' & _) & P1 & _ & P2 & _ & P3 & m & P4 & P5 & P6).
    do 3 eexists. split; [exact Cm'|split; [exact P3|]]. exists ns', m. split; [eapply calm_tree; eauto|]. auto 10.
  Qed.

  (** The same in terms of what the nodes' drivers spent, for drivers that start at cost 0 and spend nothing on finalizing. *)
  Definition spent (n n' : node drv) : Q := (nth (level n) (cost_modifiers C) 0 * inject_Z (dcost (driver n') - dcost (driver n)))%Q.
  Theorem C58_cost_is_what_drivers_spent c k :
    (forall lv w pop, dcost (dnew lv w pop) = 0%Z) -> (forall w d, dcost (fst (dfinal w d)) = dcost d) ->
    life 0 c -> exists ns, dtree c ns /\
    served k HNewMetaepoch c (fun a c' => exists ns' m, dtree c' ns' /\ length ns' = length ns /\
      a = HMetaepochEnd (s_cost (sup c')) /\ s_cost (sup c') = (s_cost (sup c) + m)%Q /\
      (exists i n n', nth_error ns i = Some n /\ nth_error ns' i = Some n' /\ alive n = true /\ m = spent n n') /\
      (forall i n n', nth_error ns i = Some n -> nth_error ns' i = Some n' -> alive n = true -> (spent n n' <= m)%Q)).
  Proof.
    intros Hnew Hfin L. destruct (life_paid dnew dstep dcost dfinal ddelegates hv_of EPSILON C W Wnew Htop Hlen Hnew Hfin _ _ L) as (ns & R & St & F).
    pose proof St as (Cm & Iv & _). exists ns. split; [eapply calm_tree; eauto|].
    eapply serve; [eapply metaepoch_life; eauto|]. intros c' (ns' & (Cm' & Iv' & _) & P1 & _ & P2 & _ & P3 & m & P4 & P5 & P6).
    assert (E : forall i n n', nth_error ns i = Some n -> nth_error ns' i = Some n' -> weighted_cost C n n' = spent n n').
    { intros i n n' H H'. destruct (P2 i n H) as (n2 & H2 & Rn). rewrite H' in H2. injection H2 as <-.
      rewrite Forall_forall in F. pose proof (F n (nth_error_In _ _ H)) as X.
      assert (Y : paid dcost n') by (eapply (ran_paid dstep dcost dfinal ddelegates hv_of C Htop Hlen Hfin n n'); [exact (iv_level C _ _ Iv i n H)|exact X|exact Rn]).
      unfold weighted_cost, spent. now rewrite X, Y. }
    do 3 eexists. split; [exact Cm'|split; [exact P3|]]. exists ns', m. split; [eapply calm_tree; eauto|]. split; [exact P1|]. split; [reflexivity|]. split; [exact P4|]. split.
    - destruct P5 as (i & n & n' & H1 & H2 & H3 & ->). exists i, n, n'. repeat split; auto. eapply E; eauto.
    - intros i n n' H1 H2 H3. rewrite <- (E i n n' H1 H2). eauto.
  Qed.

  (** C59 *)
  Theorem C59_population_every_schedule c k : life 0 c -> exists ns, dtree c ns /\
    served k HPopulation c (fun a c' => dtree c' ns /\ exists pop, a = HPopulations pop /\ Permutation pop (flat_map (fun n => population n) ns)).
  Proof.
    intros L. destruct (life_state Htop Hlen _ _ L) as (ns & R & St). pose proof St as (Cm & Iv & _). exists ns. split; [eapply calm_tree; eauto|].
    eapply serve; [eapply population_life; eauto|]. intros c' ((Cm' & Iv' & _) & _ & _ & order & P & A).
    do 3 eexists. split; [exact Cm'|split; [exact A|]]. split; [eapply calm_tree; eauto|]. eexists. split; [reflexivity|]. now apply Permutation_flat_map.
  Qed.
  (** One status for every node asked about (all of them, or those of a level): its level, flags, centre and size.
      The address in it is the supervisor's own, not the node's. *)
  Theorem C59_status_every_schedule c k lv : life 0 c -> exists ns, dtree c ns /\
    served k (HCheckStatus lv) c (fun a c' => dtree c' ns /\ exists l, a = HStatuses l /\ Permutation l (map (node_status drv Sup) (asked ns lv))).
  Proof.
    intros L. destruct (life_state Htop Hlen _ _ L) as (ns & R & St). pose proof St as (Cm & Iv & _). exists ns. split; [eapply calm_tree; eauto|].
    eapply serve; [eapply status_life; eauto|]. intros c' ((Cm' & Iv' & _) & _ & _ & order & P & A).
    do 3 eexists. split; [exact Cm'|split; [exact A|]]. split; [eapply calm_tree; eauto|]. eexists. split; [reflexivity|]. now apply Permutation_map.
  Qed.

  (** C95 *)
  Theorem C95_stagnating_nodes_ripen c k : life 1 c -> exists ns, dtree c ns /\
    served k HTrimNotProgressing c (fun a c' => a = HTrimNotProgressingEnd /\ s_cost (sup c') = s_cost (sup c) /\ exists ns', dtree c' ns' /\ length ns' = length ns /\
      forall i n, nth_error ns i = Some n -> exists n', nth_error ns' i = Some n' /\ trimmed EPSILON (s_ratios (sup c)) n n').
  Proof.
    intros L. destruct (life_state Htop Hlen _ _ L) as (ns & R & St). pose proof St as (Cm & Iv & _). exists ns. split; [eapply calm_tree; eauto|].
    eapply serve; [eapply trim_life; eauto|]. intros c' (ns' & (Cm' & Iv' & _) & P1 & _ & A & F & P2).
    do 3 eexists. split; [exact Cm'|split; [exact A|]]. split; [reflexivity|]. split; [apply F|]. exists ns'. split; [eapply calm_tree; eauto|]. auto.
  Qed.

  (** C60 - what is true of it: the request is answered and no node changes, redundant or not. *)
  Theorem C60_redundant_nodes_untouched_partial c k : life 2 c -> exists ns, dtree c ns /\
    served k HTrimRedundant c (fun a c' => a = HTrimRedundantEnd /\ dtree c' ns).
  Proof.
    intros L. destruct (life_state Htop Hlen _ _ L) as (ns & R & St). pose proof St as (Cm & Iv & _). exists ns. split; [eapply calm_tree; eauto|].
    eapply serve; [eapply redundant_life; eauto|]. intros c' ((Cm' & Iv' & _) & _ & A & _).
    do 3 eexists. split; [exact Cm'|split; [exact A|]]. split; [reflexivity|]. eapply calm_tree; eauto.
  Qed.

  Lemma tree_inv c ns R : DhgsOps.calm dnew Wnew c ns R -> inv C (sup c) ns ->
    let order := concat (rev (s_levels (sup c))) in
    NoDup order /\ (forall i n j, nth_error ns i = Some n -> In j (sprouts n) -> j < length ns) /\ (forall i, In i order -> i < length ns) /\ Permutation order (seq 0 (length ns)).
  Proof.
    intros Cm Iv order. pose proof (order_perm C Htop ns (sup c) Iv) as P. fold order in P. split; [eapply Permutation_NoDup; [symmetry; exact P|apply seq_NoDup]|split; [|split; [|exact P]]].
    - intros i n j Hn Hj. destruct (iv_sprouts _ _ _ Iv _ _ Hn) as (_ & H). destruct (H j Hj) as (_ & m & Hm & _). apply nth_error_Some. congruence.
    - intros i Hi. apply (Permutation_in _ P), in_seq in Hi. lia.
  Qed.

  (** C61 - the first half fails (below); what holds: only ripe nodes above the last level and below the limit release, at most
      [sproutiveness] sprouts each, so that a node ends with at most max_sprouts_no - 1 + sproutiveness living sprouts unless it had more. *)
  Theorem C61_sprouting_limits_partial c k : life 3 c -> exists ns, dtree c ns /\
    served k HReleaseSprouts c (fun a c' => a = HReleaseSproutsEnd /\ exists ns', dtree c' ns' /\
      forall i n, nth_error ns i = Some n -> exists new, let n' := with_sprouts n (sprouts n ++ new) in
        nth_error ns' i = Some n' /\
        (forall j, In j new -> length ns <= j /\ exists m, nth_error ns' j = Some m /\ level m = S (level n) /\ alive m = true) /\
        length new <= sproutiveness C /\
        (new <> [] -> ripe n = true /\ level n < max_level C /\ living_sprouts ns n < max_sprouts_no C) /\
        living_sprouts ns' n' = living_sprouts ns n + length new /\
        living_sprouts ns' n' <= Nat.max (living_sprouts ns n) (max_sprouts_no C - 1 + sproutiveness C)).
  Proof.
    intros L. destruct (life_state Htop Hlen _ _ L) as (ns & R & St). pose proof St as (Cm & Iv & _). exists ns. split; [eapply calm_tree; eauto|].
    eapply serve; [eapply release_life; eauto|]. intros c' (ns' & seeds & (Cm' & Iv' & _) & T & A & _).
    do 3 eexists. split; [exact Cm'|split; [exact A|]]. split; [reflexivity|]. exists ns'. split; [eapply calm_tree; eauto|].
    destruct (tree_inv _ _ _ Cm Iv) as (ND & Sp & Or & _). destruct (turns_spec dnew C Wnew _ _ _ _ _ T ND Sp Or) as (_ & _ & Old).
    intros i n Hn. destruct (Old i n Hn) as (new & H1 & _ & H2 & H3 & H4). exists new. cbv zeta. split; [exact H1|split; [exact H4|split; [exact H3|split; [exact H2|]]]].
    assert (E : living_sprouts ns' (with_sprouts n (sprouts n ++ new)) = living_sprouts ns n + length new).
    { eapply (turns_living dnew C Wnew); eauto. intros j Hj. destruct (H4 j Hj) as (_ & m & Hm & _ & Am). eauto. }
    split; [exact E|]. rewrite E. destruct new as [|x new]; [cbn; lia|]. destruct H2 as (_ & _ & H2); [discriminate|]. lia.
  Qed.
  (** The round exactly: the nodes take their turns one after the other; [turn] says what a turn does. *)
  Theorem C61_release_exactly c k : life 3 c -> exists ns, dtree c ns /\
    served k HReleaseSprouts c (fun a c' => a = HReleaseSproutsEnd /\ exists ns' seeds, dtree c' ns' /\
      turns (concat (rev (s_levels (sup c)))) ns [] ns' seeds /\ s_cost (sup c') = s_cost (sup c) /\ s_ratios (sup c') = s_ratios (sup c)).
  Proof.
    intros L. destruct (life_state Htop Hlen _ _ L) as (ns & R & St). pose proof St as (Cm & Iv & _). exists ns. split; [eapply calm_tree; eauto|].
    eapply serve; [eapply release_life; eauto|]. intros c' (ns' & seeds & (Cm' & Iv' & _) & T & A & _ & Co & Ra).
    do 3 eexists. split; [exact Cm'|split; [exact A|]]. split; [reflexivity|]. exists ns', seeds. split; [eapply calm_tree; eauto|]. auto.
  Qed.

  (** C62 - the nodes asked during the round are those there were, each once, and never a node of a deeper level after another. *)
  Theorem C62_release_round_order c k : life 3 c -> exists ns, dtree c ns /\
    served k HReleaseSprouts c (fun a c' => a = HReleaseSproutsEnd /\ exists order, visited c' = visited c ++ order /\ Permutation order (seq 0 (length ns)) /\
      forall before i between j after n m, order = before ++ i :: between ++ j :: after -> nth_error ns i = Some n -> nth_error ns j = Some m -> level m <= level n).
  Proof.
    intros L. destruct (life_state Htop Hlen _ _ L) as (ns & R & St). pose proof St as (Cm & Iv & _). exists ns. split; [eapply calm_tree; eauto|].
    eapply serve; [eapply release_life; eauto|]. intros c' (ns' & seeds & (Cm' & Iv' & _) & _ & A & V & _).
    do 3 eexists. split; [exact Cm'|split; [exact A|]]. split; [reflexivity|]. exists (concat (rev (s_levels (sup c)))). split; [exact V|].
    destruct (tree_inv _ _ _ Cm Iv) as (_ & _ & _ & P). split; [exact P|]. intros before i between j after n m E Hn Hm.
    set (Rl := fun i j => forall n m, nth_error ns i = Some n -> nth_error ns j = Some m -> level m <= level n).
    assert (S : StronglySorted Rl (concat (rev (s_levels (sup c))))); [|rewrite E in S; exact (sorted_nth _ _ _ _ _ _ S n m Hn Hm)].
    pose proof (iv_levels _ _ _ Iv) as Ll. pose proof (iv_listed _ _ _ Iv) as Li. destruct (s_levels (sup c)) as [|l0 [|l1 [|l2 [|]]]]; try discriminate.
    assert (Lev : forall lv ids x y, nth_error [l0; l1; l2] lv = Some ids -> In x ids -> nth_error ns x = Some y -> level y = lv).
    { intros lv ids x y El Hx Hy. apply (proj2 (Li _ _ El)) in Hx. destruct Hx as (z & Hz & Lz). congruence. }
    assert (X : forall lv lv' a b, nth_error [l0; l1; l2] lv = Some a -> nth_error [l0; l1; l2] lv' = Some b -> lv' <= lv -> forall x y, In x a -> In y b -> Rl x y).
    { intros lv lv' a b Ea Eb Le x y Hx Hy u v Hu Hv. rewrite (Lev _ _ _ _ Ea Hx Hu), (Lev _ _ _ _ Eb Hy Hv). exact Le. }
    cbn. rewrite app_nil_r. apply sorted_app; [apply sorted_all; apply (X 2 2); auto|apply sorted_app; [apply sorted_all; apply (X 1 1); auto|apply sorted_all; apply (X 0 0); auto|apply (X 1 0); auto]|].
    intros x y Hx Hy. apply in_app_iff in Hy. destruct Hy as [Hy|Hy]; [eapply (X 2 1); [reflexivity|reflexivity|lia|exact Hx|exact Hy]|eapply (X 2 0); [reflexivity|reflexivity|lia|exact Hx|exact Hy]].
  Qed.

  (** C63 *)
  Theorem C63_revival c k : life 4 c -> exists ns, dtree c ns /\
    served k HRevive c (fun a c' => a = HReviveEnd /\ exists ns', dtree c' ns' /\ length ns' = length ns /\
      if existsb (@alive drv) ns then ns' = ns /\ s_ratios (sup c') = s_ratios (sup c)
      else (forall i n, nth_error ns i = Some n -> nth_error ns' i = Some (if ripe n then with_flags drv n true false else n)) /\
           existsb (@alive drv) ns' = true /\ halved (S (max_level C)) (s_ratios (sup c)) (s_ratios (sup c'))).
  Proof.
    intros L. destruct (life_state Htop Hlen _ _ L) as (ns & R & St). pose proof St as (Cm & Iv & _). exists ns. split; [eapply calm_tree; eauto|].
    eapply serve; [eapply revive_life; eauto|]. intros c' (ns' & (Cm' & Iv' & Al) & _ & A & _ & P).
    do 3 eexists. split; [exact Cm'|split; [exact A|]]. split; [reflexivity|]. exists ns'. split; [eapply calm_tree; eauto|].
    destruct (existsb (@alive drv) ns) eqn:E; destruct P as (-> & P); [auto|]. split; [apply map_length|]. split; [|split; [exact Al|exact P]].
    intros i n Hn. rewrite nth_error_map, Hn. cbn. rewrite (iv_flags _ _ _ Iv _ _ Hn).
    assert (alive n = false) as ->; [|reflexivity]. destruct (alive n) eqn:An; [|auto]. rewrite <- E. symmetry. apply existsb_exists. exists n. split; [eapply nth_error_In; eauto|auto].
  Qed.
  (** ... so that between two steps some node is alive. *)
  Theorem C63_some_node_alive c : life 0 c -> exists ns n, dtree c ns /\ In n ns /\ alive n = true.
  Proof.
    intros L. destruct (life_state Htop Hlen _ _ L) as (ns & R & (Cm & Iv & Al)). apply existsb_exists in Al. destruct Al as (n & Hn & An).
    exists ns, n. split; [eapply calm_tree; eauto|auto].
  Qed.
End Dhgs.

(** ---- a small system: a population of points on a line; a step moves all of them by a given function ---- *)
Definition tdrv := (list vec * Z)%type.
Definition tdraw := (Z -> Z)%type.
Definition tcfg (ml ms sp : nat) : config :=
  {| dims := [(0, 40)]%Z; cost_modifiers := [1; 1#2; 1#4]%Q; min_dists := [3; 3; 3]%Q; metaepoch_lens := [1; 1; 1]; max_level := ml;
     max_sprouts_no := ms; sproutiveness := sp; population_sizes := [2; 2; 2]; mutation_rates := [5; 5; 5]%Z |}.
Definition tnew (lv : nat) (x : tdraw) (pop : list vec) : tdrv := (pop, 0%Z).
Definition tstep (x : tdraw) (d : tdrv) : tdrv := (map (map x) (fst d), (snd d + Z.of_nat (length (fst d)))%Z).
Definition tfinal (x : tdraw) (d : tdrv) : tdrv * list vec := (d, fst d).
Definition thv (pop : list vec) : Q := inject_Z (fold_right Z.add 0%Z (concat pop)).
(** The root moves once, in its second metaepoch (the 5th of its tasks); sprouts jump to 10. *)
Definition tW (i k : nat) : ndraws tdraw :=
  {| w_steps := fun _ => if i =? 0 then (if k =? 4 then Z.succ else fun z => z) else fun _ => 10%Z; w_final := fun z => z; w_shuffle := fun k => k;
     w_mutants := fun _ d n => repeat d n |}.
Definition tWnew (i : nat) : tdraw := fun z => z.
Definition down : list (addr * addr) :=
  [(Ext, Sup); (Sup, Nd 0); (Sup, Nd 1); (Sup, Nd 2); (Nd 0, Nd 1); (Nd 0, Nd 2); (Nd 1, Nd 0); (Nd 2, Nd 0); (Nd 0, Sup); (Nd 1, Sup); (Nd 2, Sup); (Sup, Ext)].
Definition tsteps (ml ms sp m j : nat) (chs : list (addr * addr)) : option (system tdrv) :=
  pump_steps tnew tstep snd tfinal fst thv (1#1000) (tcfg ml ms sp) tW tWnew 200 chs m j 0 (initial tdrv [1#10; 1#10; 1#10]%Q [[10]; [30]]%Z).
Notation tlife ml ms sp := (life tnew tstep snd tfinal fst thv (1#1000) (tcfg ml ms sp) tW tWnew).
Notation tanswered ml ms sp := (answered tnew tstep snd tfinal fst thv (1#1000) (tcfg ml ms sp) tW tWnew).
Notation tis := (node_is tnew tWnew).
Definition glance {A} (f : node tdrv -> A) (c : system tdrv) : list (option A) := map (fun i => option_map f (a_node _ (c_nodes _ c i))) [0; 1; 2].

Lemma tlives ml ms sp m j chs c : ml <= 2 -> j <= 5 -> tsteps ml ms sp m j chs = Some c -> tlife ml ms sp (if j =? 5 then 0 else j) c.
Proof. intros Hm Hj H. eapply pump_steps_ok; [exact Hj| |exact H]. apply life_start. cbn. lia. Qed.

(** C60 fails: the two sprouts meet, alive and on the same level, and TRIM_REDUNDANT leaves both. *)
Theorem C60_redundant_survive_refuted :
  exists c c' n1 n2, tlife 1 2 2 2 c /\ tanswered 1 2 2 0 HTrimRedundant c c' /\ tis c' 1 n1 /\ tis c' 2 n2 /\
    level n1 = 1 /\ level n2 = 1 /\ alive n1 = true /\ alive n2 = true /\ near (nth 1 (min_dists (tcfg 1 2 2)) 0%Q) (mean (population n1)) (mean (population n2)).
Proof.
  assert (H : option_map (fun c => option_map (glance (fun n => (level n, alive n, population n))) (request tnew tstep snd tfinal fst thv (1#1000) (tcfg 1 2 2) tW tWnew 200 down 0 HTrimRedundant c))
      (tsteps 1 2 2 3 2 down) = Some (Some [Some (0, false, [[11]; [31]]%Z); Some (1, true, [[10]; [10]]%Z); Some (1, true, [[10]; [10]]%Z)])) by (vm_compute; reflexivity).
  destruct (tsteps 1 2 2 3 2 down) as [c|] eqn:E; [|discriminate]. cbn [option_map] in H. injection H as H.
  destruct (request tnew tstep snd tfinal fst thv (1#1000) (tcfg 1 2 2) tW tWnew 200 down 0 HTrimRedundant c) as [c'|] eqn:E'; [|discriminate].
  cbn [option_map] in H. unfold glance in H. cbn [map] in H. injection H as H0 H1 H2.
  destruct (a_node tdrv (c_nodes tdrv c' 1)) as [n1|] eqn:A1; [|discriminate]. destruct (a_node tdrv (c_nodes tdrv c' 2)) as [n2|] eqn:A2; [|discriminate].
  cbn in H1, H2. injection H1 as L1 F1 P1. injection H2 as L2 F2 P2.
  exists c, c', n1, n2. split; [apply (tlives 1 2 2 3 2 down); auto|]. split; [eapply request_ok; exact E'|]. split; [left; exact A1|]. split; [left; exact A2|].
  repeat (split; [assumption|]). rewrite P1, P2. do 2 eexists. split; [vm_compute; reflexivity|split; [vm_compute; reflexivity|]]. split; reflexivity.
Qed.

(** C61's limit fails: max_sprouts_no is 1, yet the round leaves the root with two living sprouts. *)
Theorem C61_sprout_limit_refuted :
  exists c c' m0 n0 n1 n2, tlife 1 1 2 3 c /\ tis c 0 m0 /\ sprouts m0 = [] /\ tanswered 1 1 2 0 HReleaseSprouts c c' /\ tis c' 0 n0 /\ tis c' 1 n1 /\ tis c' 2 n2 /\
    max_sprouts_no (tcfg 1 1 2) = 1 /\ sprouts n0 = [1; 2] /\ alive n1 = true /\ alive n2 = true.
Proof.
  assert (H' : option_map (glance (@sprouts tdrv)) (tsteps 1 1 2 2 3 down) = Some [Some []; None; None]) by (vm_compute; reflexivity).
  assert (H : option_map (fun c => option_map (glance (fun n => (sprouts n, alive n))) (request tnew tstep snd tfinal fst thv (1#1000) (tcfg 1 1 2) tW tWnew 200 down 0 HReleaseSprouts c))
      (tsteps 1 1 2 2 3 down) = Some (Some [Some ([1; 2], false); Some ([], true); Some ([], true)])) by (vm_compute; reflexivity).
  destruct (tsteps 1 1 2 2 3 down) as [c|] eqn:E; [|discriminate]. cbn [option_map] in H, H'. injection H as H.
  unfold glance in H'. cbn [map] in H'. destruct (a_node tdrv (c_nodes tdrv c 0)) as [m0|] eqn:A; [|discriminate]. injection H' as S _ _.
  destruct (request tnew tstep snd tfinal fst thv (1#1000) (tcfg 1 1 2) tW tWnew 200 down 0 HReleaseSprouts c) as [c'|] eqn:E'; [|discriminate].
  cbn [option_map] in H. unfold glance in H. cbn [map] in H. injection H as H0 H1 H2.
  destruct (a_node tdrv (c_nodes tdrv c' 0)) as [n0|] eqn:A0; [|discriminate].
  destruct (a_node tdrv (c_nodes tdrv c' 1)) as [n1|] eqn:A1; [|discriminate]. destruct (a_node tdrv (c_nodes tdrv c' 2)) as [n2|] eqn:A2; [|discriminate].
  cbn in H0, H1, H2. injection H0 as S0 F0. injection H1 as S1 F1. injection H2 as S2 F2.
  exists c, c', m0, n0, n1, n2. split; [apply (tlives 1 1 2 2 3 down); auto|]. split; [left; exact A|]. split; [exact S|]. split; [eapply request_ok; exact E'|].
  split; [left; exact A0|split; [left; exact A1|split; [left; exact A2|]]]. auto.
Qed.

(** The hypotheses hold of it, in every phase, under two different schedules; with no level below the root it is revived at half the ratios (C63). *)
Example C58_example : max_level (tcfg 2 2 2) <= 2 /\ (forall l, l <= max_level (tcfg 2 2 2) -> 0 < nth l (metaepoch_lens (tcfg 2 2 2)) 0) /\
  (forall j, j < 5 -> exists c, tlife 2 2 2 j c /\ exists c', tsteps 2 2 2 3 j (rev down) = Some c') /\
  option_map (fun c => Qred (s_cost (c_sup _ c))) (tsteps 1 2 2 3 5 down) = Some 7%Q /\
  option_map (fun c => Qred (s_cost (c_sup _ c))) (tsteps 1 2 2 3 5 (rev down)) = Some 7%Q.
Proof.
  split; [cbn; lia|]. split; [cbn; intros [|[|[|l]]] H; cbn; lia|]. split; [|split; vm_compute; reflexivity].
  assert (T : forall j, j < 5 -> (exists c, tsteps 2 2 2 3 j down = Some c) /\ exists c, tsteps 2 2 2 3 j (rev down) = Some c).
  { assert (X : forall (x : option (system tdrv)), option_map (fun _ => tt) x = Some tt -> exists c, x = Some c) by (intros [c|] H; [eauto|discriminate]).
    intros [|[|[|[|[|j]]]]] Hj; try lia; split; apply X; vm_compute; reflexivity. }
  intros j Hj. destruct (T j Hj) as ((c & E) & (c' & E')). exists c. split; [|eauto]. pose proof (tlives 2 2 2 3 j down c) as X. destruct (Nat.eqb_spec j 5); [lia|]. apply X; auto; cbn; lia.
Qed.
(** Its drivers start at cost 0 and finalize for free. *)
Example C58_drivers_example : (forall lv w pop, snd (tnew lv w pop) = 0%Z) /\ (forall w d, snd (fst (tfinal w d)) = snd d).
Proof. split; reflexivity. Qed.
Example C63_example : option_map (fun c => (s_ratios (c_sup _ c), glance (fun n => (alive n, ripe n)) c)) (tsteps 0 2 2 2 5 down) =
  Some ([(1#10)/2; 1#10; 1#10]%Q, [Some (true, false); None; None]).
Proof. vm_compute. reflexivity. Qed.
Example C62_example : option_map (fun c => visited c) (tsteps 1 2 2 4 0 down) = Some [0; 0; 0; 1; 2; 0].
Proof. vm_compute. reflexivity. Qed.

Print Assumptions C58_metaepoch_every_schedule.
Print Assumptions C58_cost_is_what_drivers_spent.
Print Assumptions C59_population_every_schedule.
Print Assumptions C59_status_every_schedule.
Print Assumptions C95_stagnating_nodes_ripen.
Print Assumptions C60_redundant_nodes_untouched_partial.
Print Assumptions C61_sprouting_limits_partial.
Print Assumptions C61_release_exactly.
Print Assumptions C62_release_round_order.
Print Assumptions C63_revival.
Print Assumptions C63_some_node_alive.
Print Assumptions C60_redundant_survive_refuted.
Print Assumptions C61_sprout_limit_refuted.
