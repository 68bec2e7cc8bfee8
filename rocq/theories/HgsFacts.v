(** Consequences of [HgsRunProofs.step_ok] for arbitrary drivers: nothing is asked of them and they may raise. *)
From Verif Require Import Spec Base VarModel VarProofs HgsModel HgsSpec HgsProofs HgsTrimProofs HgsReleaseProofs HgsRunProofs.
From Coq Require Import QArith Lqa.
Local Open Scope nat_scope.

Section Facts.
  Variables drv draw : Type.
  Variable dnew : nat -> draw -> list vec -> option drv.
  Variable dstep : draw -> drv -> option drv.
  Variable dcost : drv -> Z.
  Variable dfinal : draw -> drv -> option (drv * list vec).
  Variable ddelegates : drv -> option (list vec).
  Variable hv_of : list vec -> Q.
  Variable raw : Z -> Z -> Z -> Z -> Z.
  Variable EPSILON : Q.
  Variable C : config.
  Notation hgs := (hgs drv). Notation node := (node drv). Notation step_draws := (step_draws draw).
  Notation anyd := (fun _ : drv => True). Notation anyv := (fun _ : vec => True).
  Notation inv := (inv drv C True anyd anyv).
  Notation stages := (stages drv draw dnew dstep dcost dfinal ddelegates hv_of raw EPSILON C anyd anyv).
  Notation reachable := (reachable dnew dstep dcost dfinal ddelegates hv_of raw EPSILON C).
  Notation hgs_step := (hgs_step drv draw dnew dstep dcost dfinal ddelegates hv_of raw EPSILON C).
  Notation hgs_run := (hgs_run drv draw dnew dstep dcost dfinal ddelegates hv_of raw EPSILON C).
  Notation run_metaepoch := (run_metaepoch drv draw dstep dcost dfinal ddelegates hv_of C).
  Notation trim_sprouts := (trim_sprouts drv EPSILON C).
  Notation release := (release_new_sprouts drv draw dnew raw C (4 + max_level C)).
  Notation revive_root := (revive_root drv).
  Notation metaepoch_of := (metaepoch_of drv draw dstep dcost dfinal ddelegates hv_of C anyd anyv).
  Notation trimmed := (trimmed drv EPSILON).

  Lemma wp_option {A} (o : option A) (P : A -> Prop) : (forall a, P a) -> wp True (of_option o) P.
  Proof. destruct o; cbn; auto. Qed.
  Lemma any_list {A} (l : list A) : Forall (fun _ => True) l.
  Proof. apply Forall_forall. auto. Qed.
  Lemma any_step D s : inv s -> wp True (hgs_step s D) (fun s' => inv s' /\ some_alive s' /\ exists s1 s2 s3, stages D s s1 s2 s3 s').
  Proof.
    apply step_ok with (ready := anyd); try (intros; apply wp_option; auto).
    - intros a. split; [auto|]. split; [apply any_list|]. apply wp_option. intros; apply any_list.
    - now left.
    - left. auto.
  Qed.
  Lemma any_init sampling d mpr pop s : hgs_init drv draw dnew C sampling d mpr pop = Ok s -> inv s /\ some_alive s.
  Proof.
    intros H. pose proof (init_ok drv draw dnew C True anyd anyv) as X.
    destruct (wp_Ok _ _ s (X ltac:(intros; apply wp_option; auto) ltac:(now left) sampling d mpr pop (any_list pop) ltac:(now left)) H) as (I & A & _). auto.
  Qed.
  Lemma any_run Ds : forall s s', inv s -> some_alive s -> hgs_run Ds s = Ok s' -> inv s' /\ some_alive s'.
  Proof.
    induction Ds as [|D Ds IH]; intros s s' I A H.
    - cbn in H. injection H as <-. auto.
    - unfold HgsModel.hgs_run in H. cbn [fold_ok] in H. apply bind_Ok in H. destruct H as (t & Ht & H).
      destruct (wp_Ok _ _ t (any_step D s I) Ht) as (It & At & _). apply (IH t s' It At H).
  Qed.
  Lemma reach_inv s : reachable s -> inv s /\ some_alive s.
  Proof. intros (sampling & d & mpr & pop & Ds & s0 & H0 & H). destruct (any_init _ _ _ _ _ H0) as (I & A). exact (any_run Ds s0 s I A H). Qed.
  Lemma reach_step s D s' : reachable s -> hgs_step s D = Ok s' -> reachable s'.
  Proof.
    intros (sampling & d & mpr & pop & Ds & s0 & H0 & H) St. exists sampling, d, mpr, pop, (Ds ++ [D]), s0. split; [exact H0|].
    clear H0. revert s0 H. induction Ds as [|D' Ds IH]; intros s0 H.
    - cbn in H. injection H as ->. unfold HgsModel.hgs_run. cbn [app fold_ok]. rewrite St. reflexivity.
    - unfold HgsModel.hgs_run in *. cbn [app fold_ok] in *. apply bind_Ok in H. destruct H as (t & Ht & H). rewrite Ht. cbn [bind]. apply IH. exact H.
  Qed.
  Lemma reach_run s Ds s' : reachable s -> hgs_run Ds s = Ok s' -> reachable s'.
  Proof.
    revert s. induction Ds as [|D Ds IH]; intros s R H; [cbn in H; now injection H as <-|].
    unfold HgsModel.hgs_run in H. cbn [fold_ok] in H. apply bind_Ok in H. destruct H as (t & Ht & H). apply (IH t); [eapply reach_step; eassumption | exact H].
  Qed.
  Lemma reach_stages s D s' : reachable s -> hgs_step s D = Ok s' -> exists s1 s2 s3, stages D s s1 s2 s3 s'.
  Proof. intros R H. destruct (reach_inv s R) as (I & _). now destruct (wp_Ok _ _ s' (any_step D s I) H) as (_ & _ & X). Qed.
  Lemma no_fuel s D : reachable s -> hgs_step s D <> NoFuel.
  Proof. intros R H. destruct (reach_inv s R) as (I & _). pose proof (any_step D s I) as X. rewrite H in X. exact X. Qed.

  (** The stages of a step are determined by it. *)
  Lemma stages_of s D s1 s2 s3 s' : reachable s -> run_metaepoch D s = Ok s1 -> trim_sprouts s1 = Ok s2 -> release D s2 0 = Ok s3 -> revive_root s3 = Ok s' -> stages D s s1 s2 s3 s'.
  Proof.
    intros R E1 E2 E3 E4. destruct (reach_stages s D s' R) as (t1 & t2 & t3 & St).
    - unfold HgsModel.hgs_step. rewrite E1. cbn [bind]. rewrite E2. cbn [bind]. rewrite E3. exact E4.
    - destruct (st_run St) as (F1 & F2 & F3 & F4). assert (t1 = s1) by congruence. subst t1. assert (t2 = s2) by congruence. subst t2. assert (t3 = s3) by congruence. now subst t3.
  Qed.

  (** One node through one step. *)
  Lemma node_story s D s1 s2 s3 s' : stages D s s1 s2 s3 s' -> forall i n, node_at s i n ->
    exists n1 n2 ks n', node_at s1 i n1 /\ node_at s2 i n2 /\ node_at s3 i (with_sprouts n2 (sprouts n2 ++ ks)) /\ node_at s' i n' /\
      metaepoch_of n n1 /\ trimmed (min_progress_ratio s1) n1 n2 /\
      (n' = with_sprouts n2 (sprouts n2 ++ ks) \/ (ripe n2 = true /\ n' = with_flags drv (with_sprouts n2 (sprouts n2 ++ ks)) true false)) /\
      sprouts n2 = sprouts n /\ level n' = level n /\ sprouts n' = sprouts n ++ ks /\ same_work n1 n'.
  Proof.
    intros St i n H. destruct St as [Run (_ & _ & _ & Pm) _ (_ & _ & _ & Pt) _ _ _ _ G _ _ Rev].
    destruct (Pm i n H) as (n1 & H1 & M & _). specialize (M I). destruct (Pt i n1 H1) as (n2 & H2 & T & _). specialize (T I).
    destruct (g_old _ _ _ _ G i n2 H2) as (ks & H3). destruct (revived_at drv s3 s' i _ Rev H3) as (n' & H' & Hn').
    destruct (metaepoch_same _ _ _ _ _ _ _ _ _ _ _ _ M) as (L1 & S1 & _). destruct (trimmed_same drv EPSILON _ _ _ T) as (L2 & S2 & C2 & D2 & P2 & De2 & R2 & Hv2 & Ho2).
    exists n1, n2, ks, n'. do 6 (split; [assumption|]). split; [exact Hn'|]. split; [congruence|].
    destruct Hn' as [->|(_ & ->)]; cbn; (split; [congruence|]); (split; [congruence|]); unfold same_work; cbn; auto 10.
  Qed.

  Lemma length_grows s D s1 s2 s3 s' : stages D s s1 s2 s3 s' -> length (nodes s1) = length (nodes s) /\ length (nodes s2) = length (nodes s) /\ length (nodes s) <= length (nodes s3) /\ length (nodes s') = length (nodes s3).
  Proof.
    intros [Run (L1 & _) _ (L2 & _) _ _ _ _ G _ _ Rev]. pose proof (g_len _ _ _ _ G).
    assert (length (nodes s') = length (nodes s3)) by (destruct Rev as [(_ & ->)|(_ & -> & _)]; [reflexivity | apply map_length]). lia.
  Qed.

  Lemma persist s D s' : reachable s -> hgs_step s D = Ok s' -> forall i n, node_at s i n ->
    exists n' ks, node_at s' i n' /\ level n' = level n /\ sprouts n' = sprouts n ++ ks /\ Forall (fun k => length (nodes s) <= k) ks.
  Proof.
    intros R H i n Hn. destruct (reach_stages s D s' R H) as (s1 & s2 & s3 & St). destruct (node_story _ _ _ _ _ _ St i n Hn) as (n1 & n2 & ks & n' & H1 & H2 & H3 & H' & M & T & _ & S2 & L & Sp & _).
    exists n', ks. repeat (split; [assumption|]). apply Forall_forall. intros k Hk. destruct (length_grows _ _ _ _ _ _ St) as (_ & Le2 & _). rewrite <- Le2.
    destruct (Nat.lt_ge_cases k (length (nodes s2))) as [L2|]; [exfalso|assumption].
    destruct (st_wf St) as (_ & W2 & W3).
    destruct (wf_sprouts _ _ W3 i _ H3) as (ND & Rg). cbn in ND, Rg. destruct (Rg k (in_or_app _ _ _ (or_intror Hk))) as (Kp & _).
    destruct (nth_error (nodes s2) k) as [m|] eqn:X; [|apply nth_error_None in X; lia]. destruct (wf_parent _ _ W2 k m X Kp) as (p & mp & Hp & _ & Ip & _).
    destruct (g_old _ _ _ _ (st_grown St) p mp Hp) as (ks' & Hp3). destruct (g_old _ _ _ _ (st_grown St) k m X) as (kk & Hk3).
    destruct (wf_parent _ _ W3 k _ Hk3 Kp) as (q & mq & _ & _ & _ & _ & Un). assert (i = q) by (apply (Un i _ H3); cbn; apply in_or_app; now right). assert (p = q) by (apply (Un p _ Hp3); cbn; apply in_or_app; now left).
    assert (i = p) by congruence. clear H0 H4. subst p. assert (mp = n2) by (unfold node_at in *; congruence). subst mp. apply NoDup_app_inv in ND. destruct ND as (_ & _ & Dj). exact (Dj k Ip Hk).
  Qed.

  Notation chosen := (chosen C). Notation seeded := (seeded dnew raw C).
  Lemma release_story s D s1 s2 s3 s' : stages D s s1 s2 s3 s' -> forall j n, node_at s2 j n ->
    exists ks, node_at s3 j (with_sprouts n (sprouts n ++ ks)) /\ (reached s2 0 j -> Forall2 (seeded s3 (S (level n))) ks (chosen s2 n)) /\ (~ reached s2 0 j -> ks = []).
  Proof.
    intros St j n H. destruct (g_old _ _ _ _ (st_grown St) j n H) as (ks & Hk). exists ks. split; [exact Hk|]. split.
    - intros R. destruct (st_done St j R n H) as (ks' & Hk' & F). unfold node_at in *. assert (X : with_sprouts n (sprouts n ++ ks) = with_sprouts n (sprouts n ++ ks')) by congruence.
      apply (f_equal sprouts) in X. cbn in X. apply app_inv_head in X. now subst.
    - intros R. pose proof (st_kept St j n H R) as X. unfold node_at in *. assert (Y : with_sprouts n (sprouts n ++ ks) = n) by congruence. apply (f_equal sprouts) in Y. cbn in Y.
      rewrite <- (app_nil_r (sprouts n)) in Y at 2. now apply app_inv_head in Y.
  Qed.

  Lemma chosen_short (s : hgs) n : length (chosen s n) <= sproutiveness C /\ (chosen s n <> [] -> level n < max_level C /\ alive_sprouts_of s n + length (chosen s n) <= max_sprouts_no C).
  Proof.
    unfold HgsSpec.chosen. destruct (level n <? max_level C) eqn:L; [|cbn; split; [lia | congruence]]. apply Nat.ltb_lt in L.
    set (f := filter _ _). pose proof (firstn_le_length (Nat.min (sproutiveness C) (max_sprouts_no C - alive_sprouts_of s n)) f) as X. rewrite firstn_length in *. split; [lia|]. intros Ne. split; [exact L|].
    destruct (Nat.eq_dec (max_sprouts_no C - alive_sprouts_of s n) 0) as [Z|Z]; [rewrite Z, Nat.min_0_r in Ne; cbn in Ne; congruence | lia].
  Qed.

  Lemma limits s D s' : reachable s -> hgs_step s D = Ok s' -> forall i n n' ks, node_at s i n -> node_at s' i n' -> sprouts n' = sprouts n ++ ks ->
    length ks <= sproutiveness C /\ (ks <> [] -> ripe n' = true /\ level n' < max_level C /\ alive_sprouts_of s' n' <= max_sprouts_no C).
  Proof.
    intros R H i n n' ks Hn Hn' Sp. destruct (reach_stages s D s' R H) as (s1 & s2 & s3 & St).
    destruct (node_story _ _ _ _ _ _ St i n Hn) as (n1 & n2 & ks0 & n0 & H1 & H2 & H3 & H0 & M & T & Or & S2 & L & Sp0 & _).
    assert (n0 = n') by (unfold node_at in *; congruence). subst n0. rewrite Sp in Sp0. apply app_inv_head in Sp0. subst ks0.
    destruct (release_story _ _ _ _ _ _ St i n2 H2) as (ks1 & H31 & Yes & No). assert (X : with_sprouts n2 (sprouts n2 ++ ks) = with_sprouts n2 (sprouts n2 ++ ks1)) by (unfold node_at in *; congruence).
    apply (f_equal sprouts) in X. cbn in X. apply app_inv_head in X. subst ks1. destruct (chosen_short s2 n2) as (Ca & Cb).
    assert (Len : reached s2 0 i -> length ks = length (chosen s2 n2)) by (intros Q; exact (Forall2_length' _ _ _ (Yes Q))).
    split.
    { destruct (le_dec (length ks) (sproutiveness C)) as [|Nl]; [assumption|]. exfalso. assert (Nr : ~ reached s2 0 i) by (intros Q; apply Len in Q; lia). rewrite (No Nr) in Nl. cbn in Nl. lia. }
    intros Ne.
    assert (Rip : ripe n2 = true).
    { destruct (ripe n2) eqn:E; [reflexivity|]. exfalso. apply Ne, No. intros Q. destruct Q; match goal with A : node_at s2 ?k ?a, B : node_at s2 ?k n2 |- _ => assert (a = n2) by (unfold node_at in *; congruence); subst a end; congruence. }
    assert (NNr : ~ ~ reached s2 0 i) by (intros Q; apply Ne, No, Q).
    assert (Ch : reached s2 0 i -> chosen s2 n2 <> []) by (intros Q E; apply Len in Q; rewrite E in Q; destruct ks; [congruence | discriminate]).
    assert (Lv : level n2 < max_level C) by (destruct (lt_dec (level n2) (max_level C)) as [|Nl]; [assumption|]; exfalso; apply NNr; intros Q; apply Nl; apply Cb, Ch, Q).
    assert (Al : ~ ~ some_alive s3).
    { intros NA. apply NNr. intros Q. specialize (Yes Q). destruct Yes as [|k d ks' ds Sd _]; [congruence|]. destruct Sd as (m & dr & mu & sz & rt & Hm & Br & _). apply NA. exists k, m. split; [exact Hm | apply Br]. }
    assert (Es : s' = s3) by (destruct (st_revived St) as [(_ & E)|(NA & _)]; [exact E | exfalso; exact (Al NA)]).
    subst s'. assert (En : n' = with_sprouts n2 (sprouts n2 ++ ks)) by (unfold node_at in *; congruence). subst n'. cbn. split; [exact Rip|]. split; [exact Lv|].
    unfold alive_sprouts_of. cbn [sprouts with_sprouts]. rewrite filter_app, app_length.
    assert (Old : filter (is_alive s3) (sprouts n2) = filter (is_alive s2) (sprouts n2)).
    { apply filter_ext_in. intros k Hk. destruct (st_wf St) as (_ & W2 & _). destruct (wf_sprouts _ _ W2 i n2 H2) as (_ & Rg). specialize (Rg k Hk).
      apply (grown_alive drv C True anyd (or_introl I) s2 s3 k (st_grown St)). lia. }
    rewrite Old. pose proof (filter_length_le (is_alive s3) ks) as Fl. fold (alive_sprouts_of s2 n2).
    destruct (le_dec (alive_sprouts_of s2 n2 + length (filter (is_alive s3) ks)) (max_sprouts_no C)) as [|Nl]; [assumption|]. exfalso. apply NNr. intros Q. specialize (Len Q). destruct (Cb (Ch Q)) as (_ & Cb'). lia.
  Qed.

  (** ---- cost ---- *)
  Notation weighted := (weighted C). Notation weighted_growth := (weighted_growth C).
  Lemma growth_sum (a b : list node) : (forall i n, nth_error a i = Some n -> exists n', nth_error b i = Some n' /\ level n' = level n) ->
    (forall i n', nth_error b i = Some n' -> length a <= i -> current_cost n' = 0%Z) -> (weighted b == weighted a + weighted_growth a b)%Q.
  Proof.
    revert b. induction a as [|x a IH]; intros b Ha Hb.
    - clear Ha. cbn [weighted_growth HgsSpec.weighted_growth combine fold_right HgsSpec.weighted]. assert (Z : (weighted b == 0)%Q); [|rewrite Z; cbn; ring].
      induction b as [|y b IH]; [reflexivity|]. unfold HgsSpec.weighted in *. cbn [fold_right]. rewrite IH by (intros i n' H _; apply (Hb (S i) n' H); cbn; lia). rewrite (Hb 0 y eq_refl) by (cbn; lia). cbn [inject_Z]. ring.
    - destruct b as [|y b]; [destruct (Ha 0 x eq_refl) as (? & X & _); discriminate|]. destruct (Ha 0 x eq_refl) as (y' & Ey & Ly). cbn in Ey. injection Ey as ->.
      specialize (IH b (fun i n H => Ha (S i) n H) (fun i n' H L => Hb (S i) n' H (le_n_S _ _ L))). unfold HgsSpec.weighted, HgsSpec.weighted_growth in *. cbn [combine fold_right fst snd]. rewrite IH, Ly. unfold Z.sub. rewrite inject_Z_plus, inject_Z_opp. ring.
  Qed.
  Lemma cost_sum s : reachable s -> (hcost s == weighted (nodes s))%Q.
  Proof. intros R. destruct (reach_inv s R) as ([_ _ _ _ _ Co] & _). exact Co. Qed.
  Lemma cost_step s D s' : reachable s -> hgs_step s D = Ok s' -> (hcost s' == hcost s + weighted_growth (nodes s) (nodes s'))%Q.
  Proof.
    intros R H. rewrite (cost_sum s R), (cost_sum s' (reach_step s D s' R H)). apply growth_sum.
    - intros i n Hn. destruct (persist s D s' R H i n Hn) as (n' & ks & Hn' & L & _). eauto.
    - intros i n' Hn' L. destruct (reach_stages s D s' R H) as (s1 & s2 & s3 & St). destruct (length_grows _ _ _ _ _ _ St) as (_ & L2 & _).
      destruct (revived_back drv C True (or_introl I) s3 s' i n' (st_revived St) Hn') as (n3 & H3 & Or). rewrite <- L2 in L. destruct (g_new _ _ _ _ (st_grown St) i n3 H3 L) as ((_ & _ & _ & Co & _) & _).
      destruct Or as [->|(_ & ->)]; exact Co.
  Qed.
  Lemma work s D s' : reachable s -> hgs_step s D = Ok s' -> forall i n n', node_at s i n -> node_at s' i n' ->
    if alive n then exists len n1, nth_error (metaepoch_lens C) (level n) = Some len /\ after_metaepoch dstep dcost dfinal ddelegates hv_of len n n1 /\ same_work n1 n' else same_work n n'.
  Proof.
    intros R H i n n' Hn Hn'. destruct (reach_stages s D s' R H) as (s1 & s2 & s3 & St).
    destruct (node_story _ _ _ _ _ _ St i n Hn) as (n1 & n2 & ks0 & n0 & H1 & H2 & H3 & H0 & M & T & Or & S2 & L & Sp0 & Sw).
    assert (n0 = n') by (unfold node_at in *; congruence). subst n0. destruct M as (_ & M). destruct (alive n); [destruct M as (len & Hl & M); eauto 6 | now subst n1].
  Qed.

  (** ---- death and revival ---- *)
  Lemma dead_stays s D s' : reachable s -> hgs_step s D = Ok s' -> forall i n n', node_at s i n -> node_at s' i n' -> alive n = false -> ripe n = false -> alive n' = false /\ ripe n' = false.
  Proof.
    intros R H i n n' Hn Hn' A Ri. destruct (reach_stages s D s' R H) as (s1 & s2 & s3 & St).
    destruct (node_story _ _ _ _ _ _ St i n Hn) as (n1 & n2 & ks0 & n0 & H1 & H2 & H3 & H0 & M & T & Or & S2 & L & Sp0 & Sw).
    assert (n0 = n') by (unfold node_at in *; congruence). subst n0. destruct M as (_ & M). rewrite A in M. subst n1. unfold HgsTrimProofs.trimmed in T. rewrite A in T. subst n2.
    destruct Or as [->|(X & _)]; [cbn; auto | congruence].
  Qed.
  Lemma dead_stays_run Ds : forall s s', reachable s -> hgs_run Ds s = Ok s' -> forall i n n', node_at s i n -> node_at s' i n' -> alive n = false -> ripe n = false -> alive n' = false /\ ripe n' = false /\ same_work n n'.
  Proof.
    induction Ds as [|D Ds IH]; intros s s' R H i n n' Hn Hn' A Ri.
    - cbn in H. injection H as <-. assert (n = n') by (unfold node_at in *; congruence). subst. unfold same_work. auto 10.
    - unfold HgsModel.hgs_run in H. cbn [fold_ok] in H. apply bind_Ok in H. destruct H as (t & Ht & H). destruct (persist s D t R Ht i n Hn) as (m & ks & Hm & _).
      destruct (dead_stays s D t R Ht i n m Hn Hm A Ri) as (Am & Rm). destruct (IH t s' (reach_step s D t R Ht) H i m n' Hm Hn' Am Rm) as (X & Y & Z). split; [exact X|]. split; [exact Y|].
      pose proof (work s D t R Ht i n m Hn Hm) as W. rewrite A in W. unfold same_work in *. decompose [and] W. decompose [and] Z. repeat split; congruence.
  Qed.
  Lemma ripe_dead s i n : reachable s -> node_at s i n -> ripe n = true -> alive n = false.
  Proof. intros R H. destruct (reach_inv s R) as (I0 & _). destruct (i_base _ _ _ _ _ _ I0 i n H). assumption. Qed.

  Lemma stag_same eps mpr (n n' : node) : level n' = level n -> old_hypervolume n' = old_hypervolume n -> hypervolume n' = hypervolume n -> stagnates eps mpr n' <-> stagnates eps mpr n.
  Proof. intros E1 E2 E3. unfold stagnates. now rewrite E1, E2, E3. Qed.

  Lemma ripening s D s' : reachable s -> hgs_step s D = Ok s' -> forall i n n', node_at s i n -> node_at s' i n' -> alive n = true ->
    (ripe n' = true -> stagnates EPSILON (min_progress_ratio s) n') /\
    (stagnates EPSILON (min_progress_ratio s) n' -> ripe n' = true \/ (alive n' = true /\ halve3 (min_progress_ratio s) = Ok (min_progress_ratio s'))).
  Proof.
    intros R H i n n' Hn Hn' A. destruct (reach_stages s D s' R H) as (s1 & s2 & s3 & St).
    destruct (node_story _ _ _ _ _ _ St i n Hn) as (n1 & n2 & ks0 & n0 & H1 & H2 & H3 & H0 & M & T & Or & S2 & L & Sp0 & Sw).
    assert (n0 = n') by (unfold node_at in *; congruence). subst n0.
    destruct (metaepoch_same _ _ _ _ _ _ _ _ _ _ _ _ M) as (L1 & _ & A1 & _). destruct Sw as (_ & _ & _ & _ & _ & So & Sh).
    unfold HgsTrimProofs.trimmed in T. rewrite A1, A in T. destruct T as (_ & _ & T). assert (Mp1 : min_progress_ratio s1 = min_progress_ratio s) by (destruct (st_meta St) as (_ & _ & X & _); exact X). rewrite Mp1 in T.
    assert (Mp3 : min_progress_ratio s3 = min_progress_ratio s) by (rewrite (proj2 (g_rest _ _ _ _ (st_grown St))); destruct (st_trim St) as (_ & _ & X & _); congruence).
    rewrite (stag_same EPSILON (min_progress_ratio s) n1 n') by congruence. split.
    - intros Ri. apply T. destruct Or as [->|(_ & ->)]; [exact Ri | discriminate Ri].
    - intros Sg. apply T in Sg. destruct Or as [->|(_ & ->)]; [left; exact Sg|]. right. split; [reflexivity|]. destruct (st_revived St) as [(X & E)|(_ & _ & _ & _ & Hv)]; [|congruence].
      exfalso. subst s'. unfold node_at in *. assert (Y : with_flags drv (with_sprouts n2 (sprouts n2 ++ ks0)) true false = with_sprouts n2 (sprouts n2 ++ ks0)) by congruence. apply (f_equal ripe) in Y. cbn in Y. congruence.
  Qed.

  Lemma ratios s D s' : reachable s -> hgs_step s D = Ok s' -> min_progress_ratio s' = min_progress_ratio s \/
    (exists a b c r, min_progress_ratio s = a :: b :: c :: r /\ min_progress_ratio s' = (a / 2 :: b / 2 :: c / 2 :: r)%Q).
  Proof.
    intros R H. destruct (reach_stages s D s' R H) as (s1 & s2 & s3 & St).
    assert (Mp3 : min_progress_ratio s3 = min_progress_ratio s) by (rewrite (proj2 (g_rest _ _ _ _ (st_grown St))); destruct (st_trim St) as (_ & _ & X & _); destruct (st_meta St) as (_ & _ & Y & _); congruence).
    destruct (st_revived St) as [(_ & ->)|(_ & _ & _ & _ & Hv)]; [now left|]. right. rewrite Mp3 in Hv. destruct (min_progress_ratio s) as [|a [|b [|c r]]]; cbn in Hv; try discriminate. injection Hv as Hv. exists a, b, c, r. auto.
  Qed.

  Lemma revive_spec s s' : revive_root s = Ok s' ->
    (some_alive s -> s' = s) /\
    (~ some_alive s -> length (nodes s') = length (nodes s) /\ forall i n n', node_at s i n -> node_at s' i n' ->
       alive n' = ripe n /\ ripe n' = false /\ level n' = level n /\ sprouts n' = sprouts n /\ center n' = center n /\ same_work n n') /\
    (~ some_alive s -> exists a b c r, min_progress_ratio s = a :: b :: c :: r /\ min_progress_ratio s' = (a / 2 :: b / 2 :: c / 2 :: r)%Q).
  Proof.
    intros H. pose proof (revive_ok drv C True (or_introl I) s (or_introl I)) as W. rewrite H in W. cbn in W. destruct W as [(A & ->)|(NA & Hn & _ & _ & Hv)].
    - split; [auto|]. split; intros X; contradiction.
    - split; [intros X; contradiction|]. split.
      + intros _. split; [rewrite Hn; apply map_length|]. intros i n n' H1 H2. unfold node_at in *. rewrite Hn, nth_error_map, H1 in H2. cbn in H2. injection H2 as <-.
        assert (alive n = false) by (destruct (alive n) eqn:X; [exfalso; apply NA; exists i, n; auto | reflexivity]). unfold same_work. destruct (ripe n) eqn:Rn; cbn; auto 20.
      + intros _. destruct (min_progress_ratio s) as [|a [|b [|c r]]]; cbn in Hv; try discriminate. injection Hv as Hv. exists a, b, c, r. auto.
  Qed.

  (** ---- trimming ---- *)
  Lemma sqdist_sym : forall a b, (sqdist a b == sqdist b a)%Q.
  Proof. induction a as [|x a IH]; intros [|y b]; cbn [sqdist]; try reflexivity. rewrite IH. ring. Qed.
  Lemma near_sym md a b : near md a b -> near md b a.
  Proof. intros (x & y & -> & -> & P & L). exists y, x. split; [reflexivity|]. split; [reflexivity|]. split; [exact P|]. rewrite sqdist_sym. exact L. Qed.

  Lemma apart s D s1 s2 : reachable s -> run_metaepoch D s = Ok s1 -> trim_sprouts s1 = Ok s2 -> (exists s', hgs_step s D = Ok s') ->
    forall i j n m md, node_at s2 i n -> node_at s2 j m -> i <> j -> level n = level m -> alive n = true -> alive m = true \/ ripe m = true -> nth_error (min_dists C) (level n) = Some md -> ~ near md (center n) (center m).
  Proof.
    intros R E1 E2 (s' & H) i j n m md Hi Hj Ne L A Am Md Nr. destruct (reach_stages s D s' R H) as (t1 & t2 & s3 & St).
    destruct (st_run St) as (F1 & F2 & _). assert (t1 = s1) by congruence. subst t1. assert (t2 = s2) by congruence. subst t2.
    destruct (st_trim St) as (Le & _ & _ & Pt).
    assert (Back : forall k x, node_at s2 k x -> exists y, node_at s1 k y /\ trimmed (min_progress_ratio s1) y x).
    { intros k x Hx. destruct (nth_error (nodes s1) k) as [y|] eqn:Y; [|apply nth_error_None in Y; unfold node_at in Hx; assert (k < length (nodes s2)) by (apply nth_error_Some; congruence); lia].
      exists y. split; [exact Y|]. destruct (Pt k y Y) as (z & Hz & T & _). assert (z = x) by (unfold node_at in *; congruence). subst. auto. }
    destruct (Back i n Hi) as (n1 & Hi1 & Ti). destruct (Back j m Hj) as (m1 & Hj1 & Tj).
    assert (A1 : alive n1 = true) by (unfold HgsTrimProofs.trimmed in Ti; destruct (alive n1) eqn:Z; [reflexivity | congruence]).
    destruct (trimmed_same drv EPSILON _ _ _ Ti) as (Ln & _). destruct (trimmed_same drv EPSILON _ _ _ Tj) as (Lm & _).
    destruct (proj1 (st_rule St (level n1) i n1 n Hi1 eq_refl A1 Hi) A) as (_ & NR).
    destruct (ripe m) eqn:Rm.
    - apply NR. exists j, m1, m, md. split; [exact Hj1|]. split; [congruence|]. split; [exact Hj|]. split; [now left|]. split; [exact Md | now apply near_sym].
    - assert (alive m = true) by (destruct Am; congruence). assert (Am1 : alive m1 = true) by (unfold HgsTrimProofs.trimmed in Tj; destruct (alive m1) eqn:Z; [reflexivity | congruence]).
      destruct (proj1 (st_rule St (level m1) j m1 m Hj1 eq_refl Am1 Hj) H0) as (_ & NRm).
      destruct (Nat.lt_ge_cases j i) as [Lt|Ge].
      + apply NR. exists j, m1, m, md. split; [exact Hj1|]. split; [congruence|]. split; [exact Hj|]. split; [right; auto|]. split; [exact Md | now apply near_sym].
      + apply NRm. exists i, n1, n, md. split; [exact Hi1|]. split; [congruence|]. split; [exact Hi|]. split; [right; split; [exact A1 | lia]|]. split; [congruence | exact Nr].
  Qed.

  (** ---- new nodes ---- *)
  Lemma newcomers s D s' : reachable s -> hgs_step s D = Ok s' -> forall k n', node_at s' k n' -> length (nodes s) <= k ->
    exists p m delegate, node_at s' p m /\ p < length (nodes s) /\ In k (sprouts m) /\ ripe m = true /\ In delegate (delegates m) /\ seeded s' (S (level m)) k delegate /\
      forall j mj md, node_at s' j mj -> level mj = S (level m) -> population mj <> [] -> nth_error (min_dists C) (S (level m)) = Some md -> ~ near md (At (map inject_Z delegate)) (center mj).
  Proof.
    intros R H k n' Hk Lk. destruct (reach_stages s D s' R H) as (s1 & s2 & s3 & St). destruct (length_grows _ _ _ _ _ _ St) as (_ & L2 & _).
    destruct (revived_back drv C True (or_introl I) s3 s' k n' (st_revived St) Hk) as (n3 & H3 & _).
    assert (Al3 : some_alive s3) by (destruct (g_new _ _ _ _ (st_grown St) k n3 H3) as ((Al & _) & _); [lia | exists k, n3; auto]).
    assert (s' = s3) by (destruct (st_revived St) as [(_ & E)|(NA & _)]; [exact E | contradiction]). subst s'.
    destruct (st_wf St) as (_ & W2 & W3). destruct (wf_root _ _ W2) as (r2 & Hr2 & _). assert (0 < length (nodes s2)) by (apply nth_error_Some; unfold node_at in Hr2; congruence).
    destruct (wf_parent _ _ W3 k n3 H3) as (p & m & Hp & Lp & Ip & Lv & Un); [lia|].
    assert (Lp2 : p < length (nodes s2)).
    { destruct (Nat.lt_ge_cases p (length (nodes s2))) as [|G]; [assumption|]. destruct (g_new _ _ _ _ (st_grown St) p m Hp G) as (F & _). destruct F as (_ & _ & _ & _ & _ & Sp & _). rewrite Sp in Ip. destruct Ip. }
    destruct (nth_error (nodes s2) p) as [m2|] eqn:Hm2; [|apply nth_error_None in Hm2; lia].
    destruct (release_story _ _ _ _ _ _ St p m2 Hm2) as (ks & Hp3 & Yes & No). assert (m = with_sprouts m2 (sprouts m2 ++ ks)) by (unfold node_at in *; congruence). subst m. cbn in *.
    assert (Ik : In k ks) by (apply in_app_or in Ip; destruct Ip as [Ip|Ip]; [|exact Ip]; destruct (wf_sprouts _ _ W2 p m2 Hm2) as (_ & Rg); specialize (Rg k Ip); lia).
    assert (Rm : ripe m2 = true).
    { destruct (ripe m2) eqn:E; [reflexivity|]. exfalso. assert (ks = []); [|subst; destruct Ik]. apply No. intros Q. destruct Q; match goal with A : node_at s2 ?k ?a, B : nth_error (nodes s2) ?k = Some m2 |- _ => assert (a = m2) by (unfold node_at in *; congruence); subst a end; congruence. }
    (* the path from the root down to p is ripe: decide it by following parents *)
    assert (Rd : reached s2 0 p \/ ~ reached s2 0 p).
    { clear -W2. revert W2. induction p as [p IH] using lt_wf_ind. intros W2. destruct (nth_error (nodes s2) p) as [n|] eqn:E; [|right; intros Q; destruct Q; unfold node_at in *; congruence].
      destruct (ripe n) eqn:Rn; [|right; intros Q; destruct Q; unfold node_at in *; congruence]. destruct p as [|p]; [left; eapply reached_self; eassumption|].
      destruct (wf_parent _ _ W2 (S p) n E) as (q & mq & Hq & Lq & Iq & _ & Un); [lia|]. destruct (IH q Lq W2) as [Rq|Nq]; [left; eapply reached_sprout; eassumption|].
      right. intros Q. inversion Q as [|p0 m0 i0 n0 Q0 Hm0 Ii]; subst. rewrite (Un p0 m0 Hm0 Ii) in Q0. contradiction. }
    destruct Rd as [Rp|Np]; [|rewrite (No Np) in Ik; destruct Ik]. specialize (Yes Rp).
    assert (Ex : exists d, In d (chosen s2 m2) /\ seeded s3 (S (level m2)) k d).
    { clear -Yes Ik. induction Yes as [|x d xs ds Sd F IH]; [destruct Ik|]. destruct Ik as [->|Ik]; [exists d; split; [now left | exact Sd]|]. destruct (IH Ik) as (d' & I1 & I2). exists d'. split; [now right | exact I2]. }
    destruct Ex as (d & Id & Sd). exists p, (with_sprouts m2 (sprouts m2 ++ ks)), d. cbn. split; [exact Hp3|]. split; [lia|]. split; [apply in_or_app; now right|]. split; [exact Rm|].
    unfold HgsSpec.chosen in Id. destruct (level m2 <? max_level C); [|destruct Id]. assert (Id' : In d (filter (fun d => negb (taken C s2 (S (level m2)) d)) (delegates m2))) by (revert Id; generalize (filter (fun d => negb (taken C s2 (S (level m2)) d)) (delegates m2)); clear; intros l; revert l; induction (Nat.min (sproutiveness C) (max_sprouts_no C - alive_sprouts_of s2 m2)) as [|z IH]; intros [|x l] H; cbn in H; try destruct H; [now left | right; auto]).
    apply filter_In in Id'. destruct Id' as (Id1 & Id2). split; [exact Id1|]. split; [exact Sd|]. apply negb_true_iff in Id2.
    intros j mj md Hj Lj Pj Hmd Nr. rewrite <- (grown_taken drv C True anyd (or_introl I) s2 s3 _ _ (st_grown St)) in Id2. unfold taken in Id2. apply not_true_iff_false in Id2. apply Id2. apply existsb_exists. exists mj. split; [eapply nth_error_In; exact Hj|].
    rewrite Lj, Nat.eqb_refl. cbn [andb]. rewrite (nth_error_nth (min_dists C) (S (level m2)) 0%Q Hmd), (proj2 (near_bool_iff _ _ _) Nr). destruct (population mj); [congruence | reflexivity].
  Qed.

  (** ---- the first two metaepochs ---- *)
  Lemma young s D1 s1 D2 s2 : reachable s -> hgs_step s D1 = Ok s1 -> hgs_step s1 D2 = Ok s2 -> forall i n n1 n2 lv, node_at s i n -> brand_new lv n -> node_at s1 i n1 -> node_at s2 i n2 ->
    ripe n1 = false /\ ripe n2 = false.
  Proof.
    intros R E1 E2 i n n1 n2 lv H Br H1 H2. destruct Br as (A & Ri & _ & _ & _ & _ & _ & _ & Rh & Oh & Hv).
    pose proof (work s D1 s1 R E1 i n n1 H H1) as W. rewrite A in W. destruct W as (len & m & _ & M & (_ & _ & _ & _ & Sr & So & Sh)).
    assert (O1 : old_hypervolume n1 = None) by (rewrite So, (am_old _ _ _ _ _ _ _ _ M); exact Hv).
    assert (V1 : hypervolume n1 = None) by (rewrite Sh, (am_hv _ _ _ _ _ _ _ _ M), Rh; exact Hv).
    assert (R1 : ripe n1 = false).
    { destruct (ripe n1) eqn:X; [|reflexivity]. destruct (ripening s D1 s1 R E1 i n n1 H H1 A) as (Y & _). destruct (Y X) as (old & h & p & Z & _). congruence. }
    split; [exact R1|]. assert (Rs := reach_step s D1 s1 R E1). destruct (alive n1) eqn:A1; [|now destruct (dead_stays s1 D2 s2 Rs E2 i n1 n2 H1 H2 A1 R1)].
    destruct (ripe n2) eqn:X; [|reflexivity]. destruct (ripening s1 D2 s2 Rs E2 i n1 n2 H1 H2 A1) as (Y & _). destruct (Y X) as (old & h & p & Z & _).
    pose proof (work s1 D2 s2 Rs E2 i n1 n2 H1 H2) as W. rewrite A1 in W. destruct W as (len2 & m2 & _ & M2 & (_ & _ & _ & _ & _ & So2 & _)). rewrite So2, (am_old _ _ _ _ _ _ _ _ M2) in Z. congruence.
  Qed.

  Lemma merged (s : hgs) : finalized_population drv s = concat (map population (nodes s)).
  Proof.
    unfold finalized_population. rewrite <- (app_nil_l (concat _)). generalize (@nil vec) as acc. generalize (nodes s). induction l as [|n l IH]; intros acc; cbn; [now rewrite app_nil_r|]. rewrite IH. now rewrite <- app_assoc.
  Qed.
End Facts.
