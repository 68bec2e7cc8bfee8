(** Properties of OMOPSO: C42, C43, C85-C88 and its part of C32. *)
From Verif Require Import Spec Base OmopsoSpec DomModel DomProofs VarModel NsgaModel NsgaProofs SmsModel SmsProofs MetModel OmopsoModel OmopsoProofs OmopsoCrowd.
From Coq Require Import QArith.
Local Open Scope nat_scope.

(** The objective vectors of an archive made of the given ones. *)
Definition bare (o : vec) : leader := mk_leader o o (Some 0%Q).

(** C42, refuted - (0,0) is added to an archive of (1,4) and (4,1): the second is skipped when the
    first is removed, and stays although it is dominated.  The same with eta = 0.0075. *)
Theorem C42_no_dominated_member_refuted :
  exists (p : leader) (archive l : list leader) (x y : leader),
    antichain l_objs archive /\
    archive_add 0 1 archive p = Some (l, true) /\ archive_add 75 10000 archive p = Some (l, true) /\
    In x l /\ In y l /\ pareto_dom (l_objs x) (l_objs y).
Proof.
  exists (bare [0; 0]%Z), [bare [1; 4]%Z; bare [4; 1]%Z], [bare [4; 1]%Z; bare [0; 0]%Z], (bare [0; 0]%Z), (bare [4; 1]%Z).
  split.
  { intros x y Hx Hy. cbn in Hx, Hy. destruct Hx as [<-|[<-|[]]], Hy as [<-|[<-|[]]]; rewrite <- dominates_spec by reflexivity; vm_compute; discriminate. }
  split; [vm_compute; reflexivity|]. split; [vm_compute; reflexivity|]. split; [right; now left|]. split; [now left|].
  apply dominates_spec; reflexivity.
Qed.
Print Assumptions C42_no_dominated_member_refuted.

(** C42, partial - adding [p] (eta = 0) to an archive without dominated members: a rejected [p]
    changes nothing and is dominated or duplicated; an accepted [p] is dominated by nobody, it is
    appended to some of the old members, and every dominated member is dominated by [p] alone. *)
Theorem C42_only_the_newcomer_dominates_partial :
  forall (d : nat) (archive : list leader) (p : leader), all_dim d l_objs archive -> length (l_objs p) = d ->
    antichain l_objs archive ->
    exists l b, archive_add 0 1 archive p = Some (l, b) /\
      (b = false -> l = archive /\ exists w, In w archive /\ covers (l_objs w) (l_objs p)) /\
      (b = true -> exists kept, l = kept ++ [p] /\ incl kept archive /\
         (forall x, In x l -> ~ pareto_dom (l_objs x) (l_objs p)) /\
         (forall x y, In x l -> In y l -> pareto_dom (l_objs x) (l_objs y) -> l_objs x = l_objs p)).
Proof.
  intros d archive p HD Hp AC.
  destruct (archive_add_ok 0 1 d archive p HD Hp) as (l & b & E & HDl & Hi & Ht & Hf & _). exists l, b. split; [exact E|].
  pose proof E as E'. unfold archive_add in E'. rewrite (scan_gscan 0 1 d) in E' by assumption. injection E' as E'.
  destruct (gscan_antichain d p Hp archive [] HD AC l b E') as (H1 & H2). cbn [app] in H1, H2. split.
  - intros ->. split; [auto|]. destruct (Hf eq_refl) as (_ & _ & w & Hw & Hd). specialize (H2 eq_refl). subst l.
    exists w. split; [exact Hw|]. destruct Hd as [Hd|Hd]; [right; apply edom_zero; [rewrite Hp; now apply HD | exact Hd] | left; now apply eobj_spec].
  - intros ->. destruct (Ht eq_refl) as (k & -> & Hk & _). exists k. split; [reflexivity|]. split; [exact Hk|].
    assert (N : forall x, In x (k ++ [p]) -> ~ pareto_dom (l_objs x) (l_objs p)).
    { intros x Hx. apply in_app_or in Hx. destruct Hx as [Hx|[<-|[]]]; [|apply pareto_dom_irrefl].
      destruct (H1 eq_refl x (Hk x Hx)) as [[]|H]. exact H. }
    split; [exact N|]. intros x y Hx Hy Hxy. apply in_app_or in Hx. destruct Hx as [Hx|[<-|[]]]; [exfalso|reflexivity].
    pose proof Hy as Hy'. apply in_app_or in Hy. destruct Hy as [Hy|[<-|[]]].
    + exact (AC x y (Hk x Hx) (Hk y Hy) Hxy).
    + apply (N x); [apply in_or_app; now left | exact Hxy].
Qed.
Print Assumptions C42_only_the_newcomer_dominates_partial.

(** C42, partial - if moreover no two neighbours in the archive are both dominated by [p], exactly
    the dominated ones go and the archive has no dominated member. *)
Theorem C42_no_neighbours_partial :
  forall (d : nat) (archive : list leader) (p : leader), all_dim d l_objs archive -> length (l_objs p) = d ->
    antichain l_objs archive ->
    (forall i a c, nth_error archive i = Some a -> nth_error archive (S i) = Some c ->
       pareto_dom (l_objs p) (l_objs a) -> pareto_dom (l_objs p) (l_objs c) -> False) ->
    exists l b, archive_add 0 1 archive p = Some (l, b) /\ antichain l_objs l /\
      (b = true -> forall x, In x l <-> x = p \/ In x archive /\ ~ pareto_dom (l_objs p) (l_objs x)).
Proof.
  intros d archive p HD Hp AC NN.
  destruct (C42_only_the_newcomer_dominates_partial d archive p HD Hp AC) as (l & b & E & Hf & Ht). exists l, b. split; [exact E|].
  destruct b.
  - destruct (Ht eq_refl) as (kept & El & Hk & Hn & Honly).
    pose proof E as E'. unfold archive_add in E'. rewrite (scan_gscan 0 1 d) in E' by assumption. injection E' as E'.
    pose proof (gscan_no_neighbours d p Hp archive [] HD AC NN l E') as EL. cbn [app] in EL.
    assert (M : forall x, In x l <-> x = p \/ In x archive /\ ~ pareto_dom (l_objs p) (l_objs x)).
    { intros x. rewrite EL, in_app_iff, filter_In. cbn [In].
      assert (X : In x archive -> (negb (edom 0 1 p x) = true <-> ~ pareto_dom (l_objs p) (l_objs x))).
      { intros Hx. rewrite <- edom_zero by (rewrite Hp; symmetry; now apply HD). destruct (edom 0 1 p x); cbn; split; congruence. }
      split; [intros [(Hx & H)|[<-|[]]] | intros [->|(Hx & H)]]; auto.
      - right. split; [exact Hx | now apply X].
      - left. split; [exact Hx | now apply X]. }
    split; [|auto]. intros x y Hx Hy Hxy. pose proof (Honly x y Hx Hy Hxy) as Ex. rewrite Ex in Hxy.
    apply M in Hy. destruct Hy as [->|(_ & Hy)]; [now apply pareto_dom_irrefl in Hxy | contradiction].
  - destruct (Hf eq_refl) as (-> & _). split; [exact AC | discriminate].
Qed.
Print Assumptions C42_no_neighbours_partial.

(** (1,4), (3,3), (4,1) and the newcomer (2,2). *)
Example C42_example :
  archive_add 0 1 [bare [1; 4]%Z; bare [3; 3]%Z; bare [4; 1]%Z] (bare [2; 2]%Z)
  = Some ([bare [1; 4]%Z; bare [4; 1]%Z; bare [2; 2]%Z], true) /\
  archive_add 0 1 [bare [1; 4]%Z; bare [3; 3]%Z] (bare [3; 4]%Z) = Some ([bare [1; 4]%Z; bare [3; 3]%Z], false).
Proof. split; vm_compute; reflexivity. Qed.

(** C43 - any sequence of add() calls on a leader archive of size >= 1 succeeds; it never holds more
    than its size, is empty only if nothing was added, and holds only what was added.
    (Every prefix of a sequence is a sequence, so this holds after each call.) *)
Theorem C43_leader_archive_is_bounded :
  forall (d size : nat) (added : list leader), 1 <= d -> 1 <= size -> all_dim d l_objs added ->
    exists l, leader_adds size [] added = Some l /\ length l <= size /\ (added <> [] -> l <> []) /\
      forall x, In x l -> exists y, In y added /\ l_value y = l_value x /\ l_objs y = l_objs x.
Proof.
  intros d size ps Hd Hs HP. destruct (leader_adds_ok d size Hd Hs ps []) as (l & E & L & NE & Hi); [cbn; lia | intros x [] | exact HP|].
  exists l. split; [exact E|]. split; [exact L|]. split; [tauto|]. intros x Hx. destruct (Hi x Hx) as (y & Hy & Ey).
  injection Ey as E1 E2. eauto.
Qed.
Print Assumptions C43_leader_archive_is_bounded.

Example C43_example :
  leader_adds 2 [] [bare [1; 4]%Z; bare [3; 3]%Z; bare [4; 1]%Z] = Some [mk_leader [3; 3]%Z [3; 3]%Z (Some (12 # 9)%Q); mk_leader [1; 4]%Z [1; 4]%Z None].
Proof. vm_compute. reflexivity. Qed.

(** What is assumed of a problem, a fitness archive and the draws of a run. *)
Definition om_setting (P : params) (fa : option (list (vec * vec))) : Prop :=
  valid_box (p_dims P) /\ (forall v, in_box (p_dims P) v -> in_box (p_dims P) (p_trim P v)) /\
  (forall v, length (p_f P v) = p_m P) /\ 1 <= p_m P /\
  (forall m k o, fa = Some m -> lookup k m = Some o -> o = p_f P k).
(** [s] is reached by the steps [Ds] from the initial population; random.sample draws existing leaders. *)
Definition om_reaches (P : params) (en ed : Z) (fa : option (list (vec * vec))) (population : list vec) (Ds : list om_draws) (s : om_state) : Prop :=
  population <> [] /\ Forall (in_box (p_dims P)) population /\
  exists s0, om_init P en ed fa population = Some s0 /\ om_goods P fa en ed Ds s0 /\ om_steps P en ed fa Ds s0 = Some s.

Lemma om_reaches_ok P en ed fa population Ds s : om_setting P fa -> om_reaches P en ed fa population Ds s ->
  om_ok P fa (length population) s /\ (fa = None -> om_cost s = length population * (1 + length Ds)) /\
  Forall (fun p => length (visited p) = S (length Ds)) (om_particles s).
Proof.
  intros (H1 & H2 & H3 & H4 & H5) (NE & HB & s0 & E0 & HG & Es).
  destruct (om_init_ok P H2 H3 H4 fa H5 en ed population NE HB) as (s0' & E0' & Ok & C0 & _ & V0).
  rewrite E0 in E0'. injection E0' as <-.
  assert (Hn : 1 <= length population) by (destruct population; [contradiction | cbn; lia]).
  destruct (om_steps_ok P H1 H2 H3 H4 fa H5 en ed (length population) Ds Hn s0 Ok HG) as (s' & Es' & Ok' & C & F).
  rewrite Es in Es'. injection Es' as <-. split; [exact Ok'|]. split; [intros Hf; rewrite C, C0 by exact Hf; lia|].
  apply Forall_forall. intros p' Hp'. destruct (MetProofs.Forall2_In_r _ _ _ _ F Hp') as (p & Hp & more & -> & Lm).
  rewrite Forall_forall in V0. destruct (V0 p Hp) as (-> & _). rewrite app_length. cbn. lia.
Qed.

(** C43 - along a run a particle's personal bests (newest first) each dominate the one they replaced;
    all were visited by the particle; and no visited position dominates the current one. *)
Theorem C43_personal_bests_improve :
  forall (P : params) (en ed : Z) (fa : option (list (vec * vec))) (population : list vec) (Ds : list om_draws) (s : om_state),
    om_setting P fa -> om_reaches P en ed fa population Ds s ->
    forall p, In p (om_particles s) ->
      length (visited p) = S (length Ds) /\ In (value p) (visited p) /\
      exists best older, bests p = (best, p_f P best) :: older /\
        Forall (fun b => snd b = p_f P (fst b) /\ In (fst b) (visited p)) (bests p) /\
        improving (map snd (bests p)) /\
        forall v, In v (visited p) -> ~ pareto_dom (p_f P v) (p_f P best).
Proof.
  intros P en ed fa population Ds s HS HR p Hp. destruct (om_reaches_ok P en ed fa population Ds s HS HR) as ((_ & _ & I3 & _) & _ & HV).
  rewrite Forall_forall in I3, HV. destruct (I3 p Hp) as (_ & _ & _ & Q4 & _ & (b & rest & Eb & Hb & Hbest) & Q6 & Q7).
  split; [auto|]. split; [exact Q4|]. exists b, rest. auto.
Qed.
Print Assumptions C43_personal_bests_improve.

(** C43 - one step: the personal best is replaced by the new position if that dominates it, and
    otherwise stays. *)
Theorem C43_personal_best_step :
  forall (P : params) (en ed : Z) (fa : option (list (vec * vec))) (population : list vec) (Ds : list om_draws) (s s' : om_state) (D : om_draws),
    om_setting P fa -> om_reaches P en ed fa population Ds s -> om_good D s -> om_step P en ed fa D s = Some s' ->
    forall k p p', nth_error (om_particles s) k = Some p -> nth_error (om_particles s') k = Some p' ->
      exists best older, bests p = best :: older /\
        (pareto_dom (p_f P (value p')) (snd best) -> bests p' = (value p', p_f P (value p')) :: bests p) /\
        (~ pareto_dom (p_f P (value p')) (snd best) -> bests p' = bests p).
Proof.
  intros P en ed fa population Ds s s' D HS HR HD E k p p' Hp Hp'.
  destruct (om_reaches_ok P en ed fa population Ds s HS HR) as (Ok & _ & _).
  destruct HS as (H1 & H2 & H3 & H4 & H5). destruct HR as (NE & _).
  assert (Hn : 1 <= length population) by (destruct population; [contradiction | cbn; lia]).
  destruct (om_step_ok P H1 H2 H3 H4 fa H5 en ed (length population) s D Hn Ok HD) as (s1 & E1 & _ & F & _).
  rewrite E in E1. injection E1 as <-. apply Forall2_nth_error in F. destruct F as (_ & F). destruct (F k p p' Hp Hp') as (_ & _ & Hc).
  destruct Ok as (_ & _ & I3 & _). rewrite Forall_forall in I3. destruct (I3 p (nth_error_In _ _ Hp)) as (_ & _ & _ & _ & _ & (b & rest & Eb & _) & _).
  exists (b, p_f P b), rest. split; [exact Eb|]. destruct Hc as [(Hs & Hc)|(b' & r' & Eb' & Hs & Hc)].
  - split; [|auto]. intros Hd. exfalso. exact (Hc _ _ Eb Hd).
  - rewrite Eb in Eb'. injection Eb' as <- <-. split; [auto|]. intros Hnd. contradiction.
Qed.
Print Assumptions C43_personal_best_step.

(** C85, partial - with eta = 0: after any sequence of additions every point ever offered is equal to
    or dominated by a member, and members are points that were offered. *)
Theorem C85_archive_covers_partial :
  forall (d : nat) (added : list leader), all_dim d l_objs added ->
    exists l, add_all 0 1 [] added = Some l /\ incl l added /\
      forall x, In x added -> exists y, In y l /\ covers (l_objs y) (l_objs x).
Proof. intros d ps HP. destruct (add_all_covers d ps []) as (l & E & Hi & C); [intros x [] | exact HP|]. exists l. auto. Qed.
Print Assumptions C85_archive_covers_partial.

(** The second point falls to the last; the third is kept because it was skipped (see C42). *)
Example C85_example :
  add_all 0 1 [] (map bare [[0; 9]; [5; 5]; [6; 4]; [9; 0]; [4; 4]]%Z) = Some (map bare [[0; 9]; [6; 4]; [9; 0]; [4; 4]]%Z).
Proof. vm_compute. reflexivity. Qed.

(** C85, partial - the same for whole runs with eta = 0: every position any particle has ever taken is
    equal to or dominated by (in objectives) an archived one. *)
Theorem C85_run_covers_partial :
  forall (P : params) (fa : option (list (vec * vec))) (population : list vec) (Ds : list om_draws) (s : om_state),
    om_setting P fa -> om_reaches P 0 1 fa population Ds s ->
    forall p v, In p (om_particles s) -> In v (visited p) ->
      exists w, In w (om_finalized s) /\ covers (p_f P w) (p_f P v).
Proof.
  intros P fa population Ds s HS HR p v Hp Hv. destruct (om_reaches_ok P 0 1 fa population Ds s HS HR) as ((_ & _ & _ & _ & _ & _ & I7 & _) & _ & _).
  pose proof HS as (H1 & H2 & H3 & H4 & H5). destruct HR as (NE & HB & s0 & E0 & HG & Es).
  assert (Hn : 1 <= length population) by (destruct population; [contradiction | cbn; lia]).
  destruct (om_init_ok P H2 H3 H4 fa H5 0 1 population NE HB) as (s0' & E0' & Ok & _). rewrite E0 in E0'. injection E0' as <-.
  pose proof (om_init_covers P H3 H4 fa H5 population s0 NE HB E0) as C0.
  destruct (om_steps_covers P H1 H2 H3 H4 fa H5 (length population) Ds Hn s0 s Ok HG C0 Es) as (_ & C).
  destruct (C p v Hp Hv) as (y & Hy & Hc). exists (l_value y). split; [unfold om_finalized; now apply in_map|].
  rewrite Forall_forall in I7. destruct (I7 y Hy) as (<- & _). exact Hc.
Qed.
Print Assumptions C85_run_covers_partial.

(** C85, refuted - with eta = 0.0075 as in the driver: four points, each removing the one before, and
    the last one, alone in the archive, is worse than the first in every objective. *)
Theorem C85_archive_covers_refuted :
  exists (added l : list leader) (first : leader),
    add_all 75 10000 [] added = Some l /\ In first added /\ l <> [] /\
    forall y, In y l -> pareto_dom (l_objs first) (l_objs y).
Proof.
  exists (map bare [[1000; 1000; 1000]; [1007; 1007; 992]; [1014; 999; 999]; [1006; 1006; 1006]]%Z), [bare [1006; 1006; 1006]%Z], (bare [1000; 1000; 1000]%Z).
  split; [vm_compute; reflexivity|]. split; [now left|]. split; [discriminate|].
  intros y [<-|[]]. apply dominates_spec; reflexivity.
Qed.
Print Assumptions C85_archive_covers_refuted.

(** C86, partial - pruning removes one member, whatever the crowding: one with the least value of the
    last objective. *)
Theorem C86_prune_partial :
  forall (d : nat) (l : list leader), 1 <= d -> l <> [] -> all_dim d l_objs l ->
    exists x r, prune l = Some r /\
      Permutation ((l_value x, l_objs x) :: map (fun y => (l_value y, l_objs y)) r) (map (fun y => (l_value y, l_objs y)) l) /\
      forall y, In y l -> (nth (d - 1) (l_objs x) 0 <= nth (d - 1) (l_objs y) 0)%Z.
Proof.
  intros d l Hd NE HD. destruct (prune_ok d l Hd NE HD) as (x & r & E & HP & Hm). exists x, r. split; [exact E|]. split; [exact HP|].
  intros y Hy. apply (in_map core) in Hy. apply (Permutation_in _ (Permutation_sym HP)) in Hy. destruct Hy as [Ey|Hy].
  - injection Ey as _ ->. lia.
  - apply in_map_iff in Hy. destruct Hy as (z & Ez & Hz). injection Ez as _ <-. exact (Hm z Hz).
Qed.
Print Assumptions C86_prune_partial.

Example C86_example :
  option_map (map l_objs) (prune (map bare [[0; 9]; [5; 5]; [9; 1]; [4; 6]]%Z)) = Some [[5; 5]; [4; 6]; [0; 9]]%Z.
Proof. vm_compute. reflexivity. Qed.

(** The values pruning and the leader tournament go by: infinite for a leader that is extreme in some
    objective, otherwise the sum over the objectives of the relative distance to the next smaller
    leader (only that one, not to both neighbours), for leaders that differ in every objective. *)
Theorem C86_crowding_values :
  forall (d : nat) (l : list leader), l <> [] -> all_dim d l_objs l ->
    (forall i, i < d -> NoDup (map (fun x => nth i (l_objs x) 0%Z) l)) ->
    exists r, crowding l = Some r /\
      Permutation (map (fun y => (l_value y, l_objs y)) r) (map (fun y => (l_value y, l_objs y)) l) /\
      forall x, In x r -> crowding_value d (map l_objs l) (l_objs x) (l_crowd x).
Proof. exact crowding_values. Qed.
Print Assumptions C86_crowding_values.

Example C86_crowding_example : forall i, i < 2 -> NoDup (map (fun x => nth i (l_objs x) 0%Z) (map bare [[0; 9]; [5; 5]; [9; 1]; [4; 6]]%Z)).
Proof. intros [|[|i]] H; [| |lia]; cbn; repeat constructor; cbn; intuition discriminate. Qed.

(** The leader a particle follows, out of two sampled ones, has the smaller of the two values (an
    infinite one is never preferred). *)
Theorem C86_followed_leader :
  forall (leaders : list leader) (i j : nat) (a b : leader),
    1 < length leaders -> nth_error leaders i = Some a -> nth_error leaders j = Some b ->
    exists l other, choose_leader leaders (i, j) = Some l /\ (l = a /\ other = b \/ l = b /\ other = a) /\
      forall q, l_crowd other = Some q -> exists q', l_crowd l = Some q' /\ (q' <= q)%Q.
Proof.
  intros leaders i j a b HL Ha Hb. unfold choose_leader. apply Nat.ltb_lt in HL. rewrite HL. cbn [fst snd]. rewrite Ha, Hb.
  destruct (crowd_lt (l_crowd b) (l_crowd a)) eqn:E.
  - exists b, a. split; [reflexivity|]. split; [auto|]. intros q Hq. rewrite Hq in E. destruct (l_crowd b) as [q'|]; [|discriminate].
    exists q'. split; [reflexivity|]. cbn in E. apply Bool.negb_true_iff in E.
    destruct (Qlt_le_dec q' q) as [H|H]; [apply Qlt_le_weak, H|]. apply Qle_bool_iff in H. congruence.
  - exists a, b. split; [reflexivity|]. split; [auto|]. intros q Hq. rewrite Hq in E. destruct (l_crowd a) as [q'|]; [|discriminate].
    exists q'. split; [reflexivity|]. cbn in E. apply Bool.negb_false_iff, Qle_bool_iff in E. exact E.
Qed.
Print Assumptions C86_followed_leader.

Example C86_followed_example :
  choose_leader [mk_leader [1]%Z [2]%Z None; mk_leader [3]%Z [4]%Z (Some (1#2)%Q)] (0, 1) = Some (mk_leader [3]%Z [4]%Z (Some (1#2)%Q)).
Proof. reflexivity. Qed.

(** C86, refuted - a crowded pair and two lone extremes: pruning drops an extreme. *)
Theorem C86_keeps_extremes_refuted :
  exists (l r : list leader) (x : leader),
    prune l = Some r /\ antichain l_objs l /\ In x l /\
    (forall y, In y l -> l_objs y = l_objs x \/ (nth 1 (l_objs x) 0 < nth 1 (l_objs y) 0)%Z) /\
    forall y, In y r -> l_objs y <> l_objs x.
Proof.
  exists (map bare [[0; 100]; [50; 50]; [51; 49]; [100; 0]]%Z). eexists. exists (bare [100; 0]%Z).
  split; [vm_compute; reflexivity|]. split.
  { intros x y Hx Hy. cbn in Hx, Hy. destruct Hx as [<-|[<-|[<-|[<-|[]]]]], Hy as [<-|[<-|[<-|[<-|[]]]]]; rewrite <- dominates_spec by reflexivity; vm_compute; discriminate. }
  split; [right; right; right; now left|]. split.
  - intros y Hy. cbn in Hy. destruct Hy as [<-|[<-|[<-|[<-|[]]]]]; cbn; auto; right; lia.
  - intros y Hy. destruct Hy as [<-|[<-|[<-|[]]]]; cbn; discriminate.
Qed.
Print Assumptions C86_keeps_extremes_refuted.

(** C87 - a run from a non-empty population never raises; particles, evaluated
    and returned vectors are in the box and results of the trim function; leaders and archive are non-empty, hold only visited positions with their objectives, and
    the leaders are at most as many as the particles.  Without a fitness archive every evaluation is
    charged: one per particle and step, and one per particle at the start. *)
Theorem C87_omopso_run :
  forall (P : params) (en ed : Z) (fa : option (list (vec * vec))) (population : list vec),
    om_setting P fa -> population <> [] -> Forall (in_box (p_dims P)) population ->
    let good v := in_box (p_dims P) v /\ exists w, v = p_trim P w in
    exists s0, om_init P en ed fa population = Some s0 /\
    forall Ds, om_goods P fa en ed Ds s0 ->
    exists s, om_steps P en ed fa Ds s0 = Some s /\
      length (om_particles s) = length population /\ Forall (fun p => good (value p)) (om_particles s) /\
      1 <= length (om_leaders s) <= length population /\ om_finalized s <> [] /\
      Forall (fun l => l_objs l = p_f P (l_value l) /\ good (l_value l) /\
                       exists p, In p (om_particles s) /\ In (l_value l) (visited p)) (om_leaders s ++ om_archive s) /\
      Forall good (om_evals s) /\
      (fa = None -> om_cost s = length (om_evals s) /\ om_cost s = length population * (1 + length Ds)).
Proof.
  intros P en ed fa population HS NE HB good. pose proof HS as (H1 & H2 & H3 & H4 & H5).
  destruct (om_init_ok P H2 H3 H4 fa H5 en ed population NE HB) as (s0 & E0 & Ok & _). exists s0. split; [exact E0|]. intros Ds HG.
  assert (Hn : 1 <= length population) by (destruct population; [contradiction | cbn; lia]).
  destruct (om_steps_ok P H1 H2 H3 H4 fa H5 en ed (length population) Ds Hn s0 Ok HG) as (s & Es & _).
  exists s. split; [exact Es|].
  destruct (om_reaches_ok P en ed fa population Ds s HS) as ((I1 & I2 & I3 & I4 & I5 & I6 & I7 & I8 & I9) & C & _).
  { split; [exact NE|]. split; [exact HB|]. eauto. }
  split; [exact I1|]. split; [eapply Forall_impl; [|exact I3]; intros p (Hb & _); exact Hb|]. split; [exact I4|].
  split; [unfold om_finalized; destruct (om_archive s); [contradiction | discriminate]|].
  split; [|split; [exact I8 | auto]].
  apply Forall_app. split; [eapply Forall_impl; [|exact I5] | eapply Forall_impl; [|exact I7]];
    (intros l (A1 & A2 & A3); split; [exact A1|]; split; [exact A2|]; unfold visits in A3; apply in_concat in A3;
     destruct A3 as (w & Hw & Hv); apply in_map_iff in Hw; destruct Hw as (p & <- & Hp); eauto).
Qed.
Print Assumptions C87_omopso_run.

(** C87 - assigning driver.population makes the next step raise. *)
Theorem C87_step_after_assigning_population_refuted :
  forall (P : params) (en ed : Z) (fa : option (list (vec * vec))) (pop : list vec) (D : om_draws) (s : om_state),
    pop <> [] -> om_step P en ed fa D (om_set_population pop s) = None.
Proof. intros P en ed fa pop D s. exact (om_setter_raises P fa en ed pop D s). Qed.
Print Assumptions C87_step_after_assigning_population_refuted.

(** Two particles, two objectives |x| and |x - 4|, one step with speed -3 for the first. *)
Definition om_ex : params :=
  {| p_dims := [(-10, 10)%Z]; p_f := fun v => [Z.abs (hd 0%Z v); Z.abs (hd 0%Z v - 4)]; p_m := 2; p_trim := fun v => v;
     p_crossover_rate := 0%Z; p_mutation_rate := 0%Z;
     p_raw := fun _ _ _ _ => 0%Z; p_raw_a := fun _ _ _ _ _ => 0%Z; p_raw_b := fun _ _ _ _ _ => 0%Z;
     p_half := 0%Z; p_epsilon := 0%Z; p_eps := 0%Q; p_iter := fun _ l => l |}.
Definition om_ex_draws : om_draws := {| om_pick := fun _ => (0, 1); om_speed := fun k _ _ _ _ _ => if k =? 0 then (-3)%Z else 13%Z |}.
Example C87_example :
  om_setting om_ex None /\
  match om_init om_ex 75 10000 None [[8]; [-4]]%Z with
  | None => False
  | Some s0 => om_good om_ex_draws s0 /\
      match om_step om_ex 75 10000 None om_ex_draws s0 with
      | None => False
      | Some s => map value (om_particles s) = [[5]; [9]]%Z /\ map bests (om_particles s) = [[([5], [5; 1]); ([8], [8; 4])]; [([-4], [4; 8])]]%Z /\
                  om_finalized s = [[-4]; [5]]%Z /\ om_cost s = 4 /\ map l_objs (om_leaders s) = [[5; 1]; [4; 8]]%Z
      end
  end.
Proof.
  split; [repeat split; cbn; try lia; try (repeat constructor; cbn; lia); auto; discriminate|].
  vm_compute. split; [intros; lia | repeat split].
Qed.

(** C32 (OMOPSO) - a round evaluates the particles the fitness archive does not hold; the charge is
    decided by the last particle alone. *)
Theorem C32_omopso_cost_partial :
  forall (P : params) (fa : option (list (vec * vec))) (ps : list particle) (trace : list vec),
    let known v := exists m o, fa = Some m /\ lookup v m = Some o in
    exists evaluated charge,
      snd (om_evaluate P fa ps trace) = (charge, trace ++ evaluated) /\
      (forall v, In v evaluated <-> In v (map value ps) /\ ~ known v) /\
      (fa = None -> evaluated = map value ps) /\
      (forall l p, ps = l ++ [p] -> known (value p) -> charge = 0) /\
      (forall l p, ps = l ++ [p] -> ~ known (value p) -> charge = length ps).
Proof.
  intros P fa ps trace known.
  destruct (sms_round (p_f P) fa (length ps) (map value ps) trace) as (ev & ch & E & R1 & R2 & R3 & R4 & _).
  exists ev, ch. split.
  { unfold om_evaluate. destruct (sms_objectives _ _ _ _ _) as [ms ct]. exact E. }
  split; [exact R1|]. split; [exact R2|]. split.
  - intros l p -> Hk. apply (R3 (map value l) (value p)); [now rewrite map_app | exact Hk].
  - intros l p El Hk. rewrite (R4 (map value l) (value p)); [reflexivity | rewrite El; now rewrite map_app | exact Hk].
Qed.
Print Assumptions C32_omopso_cost_partial.

(** The first of two particles is known, the second is not: one evaluation, two charged. *)
Theorem C32_omopso_cost_refuted :
  exists (P : params) (fa : option (list (vec * vec))) (population : list vec) (s : om_state),
    om_init P 75 10000 fa population = Some s /\ om_evals s = [[-4]%Z] /\ om_cost s = 2.
Proof.
  exists om_ex, (Some [([8], [8; 4])]%Z), [[8]; [-4]]%Z. eexists. split; [vm_compute; reflexivity|]. split; reflexivity.
Qed.
Print Assumptions C32_omopso_cost_refuted.

(** C88, refuted - the state of a particle is not bounded: for every length there is a run of one
    particle on x |-> x over [0, N] whose personal best, after that many steps, is a copy of a
    particle holding a copy of a particle ... one level per step (deepcopy recurses through them). *)
Theorem C88_state_stays_bounded_refuted :
  forall (k : nat), exists (P : params) (population : list vec) (Ds : list om_draws) (s : om_state) (p : particle),
    om_setting P None /\ length population = 1 /\ length Ds = k /\
    om_reaches P 75 10000 None population Ds s /\ In p (om_particles s) /\ length (bests p) = S k.
Proof.
  intros k. assert (HN : (0 <= Z.of_nat k)%Z) by lia.
  destruct (slope_run (Z.of_nat k) HN 75 10000 k ltac:(lia)) as (s0 & s & p & E0 & G & E & Ep & L).
  exists (slope (Z.of_nat k)), [[Z.of_nat k]], (repeat downhill k), s, p.
  split; [repeat split; cbn; try lia; try (repeat constructor; cbn; lia); auto; discriminate|].
  split; [reflexivity|]. split; [apply repeat_length|]. split; [|split; [rewrite Ep; now left | exact L]].
  unfold om_reaches. split; [discriminate|]. split; [repeat constructor; cbn; lia|]. exists s0. auto.
Qed.
Print Assumptions C88_state_stays_bounded_refuted.

(** C88, partial - the chain of copies is no longer than the number of steps plus one, and leaders
    and particles are bounded by the population size (C43, C87). *)
Theorem C88_copies_at_most_one_per_step_partial :
  forall (P : params) (en ed : Z) (fa : option (list (vec * vec))) (population : list vec) (Ds : list om_draws) (s : om_state),
    om_setting P fa -> om_reaches P en ed fa population Ds s ->
    forall p, In p (om_particles s) -> 1 <= length (bests p) <= 1 + length Ds.
Proof.
  intros P en ed fa population Ds s HS HR p Hp.
  destruct (C43_personal_bests_improve P en ed fa population Ds s HS HR p Hp) as (L & _ & b & older & Eb & F & Im & _).
  split; [rewrite Eb; cbn; lia|]. cbn. rewrite <- L. rewrite <- (map_length fst (bests p)).
  apply NoDup_incl_length.
  - apply improving_NoDup with (f := p_f P). rewrite map_map. erewrite map_ext_in; [exact Im|].
    intros x Hx. rewrite Forall_forall in F. symmetry. apply F. exact Hx.
  - intros v Hv. apply in_map_iff in Hv. destruct Hv as (x & <- & Hx). rewrite Forall_forall in F. apply F. exact Hx.
Qed.
Print Assumptions C88_copies_at_most_one_per_step_partial.

(** The run of C87's example with eta = 0 and with the driver's eta, for C43, C85 and C88. *)
Example C88_example : forall en ed, (en, ed) = (0, 1)%Z \/ (en, ed) = (75, 10000)%Z ->
  exists s, om_reaches om_ex en ed None [[8]; [-4]]%Z [om_ex_draws] s /\ map (fun p => length (bests p)) (om_particles s) = [2; 1] /\
    om_finalized s = [[-4]; [5]]%Z.
Proof.
  intros en ed [E|E]; injection E as -> ->; eexists;
    (split; [split; [discriminate|]; split; [repeat constructor; cbn; lia|]; eexists;
             split; [vm_compute; reflexivity|]; split; [|vm_compute; reflexivity]|split; reflexivity]).
  all: split; [intros k Hk Hl; vm_compute in Hl |- *; lia | intros s' _; exact I].
Qed.
