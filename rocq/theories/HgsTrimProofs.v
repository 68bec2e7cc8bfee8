(** Proofs about HGS: trimming. *)
From Verif Require Import Spec Base VarModel VarProofs HgsModel HgsSpec HgsProofs.
From Coq Require Import QArith Lqa.
Local Open Scope nat_scope.

Section Trim.
  Variable drv : Type.
  Variable EPSILON : Q.
  Variable C : config.
  Notation hgs := (hgs drv). Notation node := (node drv).
  Variable E : Prop.
  Variable good : drv -> Prop.
  Variable goodv : vec -> Prop.
  Hypothesis Hmd : E \/ 3 <= length (min_dists C).
  Notation base := (base drv good goodv).
  Notation pointwise := (pointwise drv).
  Notation stagnates := (stagnates EPSILON).
  Notation with_flags := (with_flags drv). Notation with_center := (with_center drv). Notation set_node := (set_node drv).

  Lemma not_progressing_ok mpr n : base n -> E \/ level n < length mpr -> wp E (not_progressing drv EPSILON mpr n) (fun b => b = true <-> stagnates mpr n).
  Proof.
    intros B L. unfold not_progressing, HgsSpec.stagnates. destruct (old_hypervolume n) as [old|] eqn:Eo.
    - destruct (Qle_bool old 0) eqn:Ole; cbn [negb].
      + cbn. split; [discriminate|]. intros (o & h & p & H & Hpos & _). injection H as ->. apply Qle_bool_iff in Ole. exfalso. lra.
      + eapply wp_bind; [apply wp_get; exact L|]. intros p Hp. destruct (hypervolume n) as [h|] eqn:Eh; [|rewrite (b_old _ _ _ n B Eh) in Eo; discriminate].
        cbn [wp]. rewrite negb_true_iff, <- not_true_iff_false, Qle_bool_iff. split.
        * intros H. exists old, h, p. split; [reflexivity|]. split; [apply Qnot_le_lt; rewrite <- Qle_bool_iff; congruence|]. split; [reflexivity|]. split; [exact Hp|]. now apply Qnot_le_lt.
        * intros (o & h' & p' & H1 & _ & H2 & H3 & H4). assert (o = old) by congruence. assert (h' = h) by congruence. assert (p' = p) by congruence. subst. now apply Qlt_not_le.
    - cbn. split; [discriminate|]. intros (o & h & p & H & _). discriminate.
  Qed.

  (** ---- lack of progress ---- *)
  Definition lacks (mpr : list Q) (n n' : node) : Prop :=
    if alive n then (stagnates mpr n /\ n' = with_center (with_flags n false true)) \/ (~ stagnates mpr n /\ n' = n) else n' = n.

  Lemma trim_not_progressing_ok ids s : NoDup ids -> (forall i, In i ids -> exists n, node_at s i n /\ base n /\ (E \/ level n < length (min_progress_ratio s))) ->
    wp E (trim_not_progressing drv EPSILON ids s) (fun s' => pointwise (lacks (min_progress_ratio s)) (fun i => In i ids) s s' /\ hcost s' = hcost s).
  Proof.
    intros ND R. unfold trim_not_progressing. set (mpr := min_progress_ratio s). set (live := filter (alive_in drv s) ids).
    assert (NDl : NoDup live) by now apply NoDup_filter.
    eapply wp_weaken.
    - apply (wp_fold E _ (fun don s' => pointwise (lacks mpr) (fun i => In i don) s s' /\ hcost s' = hcost s)).
      + split; [|reflexivity]. do 3 (split; [reflexivity|]). intros i n H. exists n. split; [exact H|]. split; [intros [] | reflexivity].
      + intros don i rest s1 El ((L & Ln & Mp & Pw) & Hc).
        assert (Il : In i live) by (rewrite El; apply in_or_app; right; now left). unfold live in Il. apply filter_In in Il. destruct Il as (Ii & Ai).
        destruct (R i Ii) as (n & Ni & B & Lv).
        assert (Ndon : ~ In i don) by (rewrite El in NDl; apply NoDup_remove_2 in NDl; intros X; apply NDl; apply in_or_app; now left).
        destruct (Pw i n Ni) as (n1 & Ni1 & _ & Same). specialize (Same Ndon). subst n1. unfold alive_in in Ai. unfold node_at in Ni. rewrite Ni in Ai.
        unfold get at 1. unfold node_at in Ni1. rewrite Ni1. cbn [bind]. rewrite Mp. fold mpr.
        eapply wp_bind; [apply not_progressing_ok; [exact B | exact Lv]|]. intros bad Hbad. cbn [wp].
        assert (Keep : forall n', (lacks mpr n n') -> forall s2, s2 = set_node i n' s1 -> pointwise (lacks mpr) (fun j => In j (don ++ [i])) s s2 /\ hcost s2 = hcost s).
        { intros n' Hn' s2 ->. split; [|exact Hc]. cbn. unfold HgsProofs.pointwise. cbn. rewrite set_nth_length. do 3 (split; [assumption|]).
          intros j m Hm. destruct (Pw j m Hm) as (m1 & Hm1 & T & U). unfold node_at. cbn. rewrite nth_error_set_nth. destruct (Nat.eqb_spec i j) as [<-|Ne].
          - rewrite Hm1. exists n'. assert (m = n) by (unfold node_at in Hm; congruence). subst m. split; [reflexivity|]. split; [auto|].
            intros X. exfalso. apply X. apply in_or_app. right. now left.
          - exists m1. split; [exact Hm1|]. split.
            + intros X. apply T. apply in_app_or in X. destruct X as [X|[X|[]]]; [exact X | congruence].
            + intros X. apply U. intros Y. apply X. apply in_or_app. now left. }
        destruct bad.
        * apply (Keep (with_center (with_flags n false true))); [|reflexivity]. unfold lacks. rewrite Ai. left. split; [now apply Hbad | reflexivity].
        * apply (Keep n); [|unfold HgsModel.set_node; rewrite (set_nth_same (nodes s1) i n Ni1); now destruct s1]. unfold lacks. rewrite Ai. right. split; [|reflexivity]. intros X. apply Hbad in X. discriminate.
    - intros s' ((L & Ln & Mp & Pw) & Hc). split; [|exact Hc]. do 3 (split; [assumption|]). intros i n H. destruct (Pw i n H) as (n' & H' & T & U). exists n'. split; [exact H'|].
      assert (X : In i live <-> In i ids /\ alive n = true) by (unfold live; rewrite filter_In; unfold alive_in; unfold node_at in H; rewrite H; reflexivity).
      split.
      + intros Y. destruct (alive n) eqn:A; [apply T; now apply X|]. unfold lacks. rewrite A. apply U. intros Z. apply X in Z. destruct Z. discriminate.
      + intros Y. apply U. intros Z. apply X in Z. tauto.
  Qed.

  (** ---- redundancy ---- *)
  Lemma at_set_same (s : hgs) i n m : node_at s i m -> node_at (set_node i n s) i n.
  Proof. unfold node_at. cbn. rewrite nth_error_set_nth, Nat.eqb_refl. now intros ->. Qed.
  Lemma at_set_other (s : hgs) i n j m : i <> j -> node_at (set_node i n s) j m <-> node_at s j m.
  Proof. intros H. unfold node_at. cbn. rewrite nth_error_set_nth. rewrite (proj2 (Nat.eqb_neq i j) H). reflexivity. Qed.

  Definition hits (s : hgs) (n : node) (others processed : list nat) : Prop :=
    exists j m md, In j others /\ node_at s j m /\ (ripe m = true \/ In j processed) /\ nth_error (min_dists C) (level n) = Some md /\ near md (center m) (center n).

  Lemma compare_ok others processed i : forall s n, node_at s i n -> ~ In i others ->
    (forall j, In j others -> exists m, node_at s j m /\ center m <> Missing) -> center n <> Missing -> level n < 3 ->
    wp E (compare_to drv C others processed i s) (fun s' =>
      (s' = s /\ (alive n = false \/ ~ hits s n others processed)) \/
      (alive n = true /\ hits s n others processed /\ s' = set_node i (with_flags n false (ripe n)) s)).
  Proof.
    induction others as [|j others IH]; intros s n Ni Nin Cen Cn Lv; cbn [compare_to].
    - cbn. left. split; [reflexivity|]. right. intros (j & m & md & [] & _).
    - destruct (Cen j (or_introl eq_refl)) as (m & Nj & Cm).
      assert (Nin' : ~ In i others) by (intros X; apply Nin; now right). assert (Ne : i <> j) by (intros ->; apply Nin; now left).
      assert (Cen' : forall j, In j others -> exists m, node_at s j m /\ center m <> Missing) by (intros k Hk; apply Cen; now right).
      unfold get at 1 2. unfold node_at in Ni, Nj. rewrite Ni, Nj. cbn [bind]. destruct (alive n) eqn:A; cbn [negb]; [|cbn; left; auto].
      assert (Hx : ripe m || existsb (Nat.eqb j) processed = true <-> (ripe m = true \/ In j processed)).
      { rewrite orb_true_iff, existsb_exists. split; (intros [X|X]; [now left | right]); [destruct X as (k & K & Ek); apply Nat.eqb_eq in Ek; now subst | exists j; split; [exact X | apply Nat.eqb_refl]]. }
      destruct (ripe m || existsb (Nat.eqb j) processed) eqn:Er.
      + eapply wp_bind; [apply wp_get; destruct Hmd as [X|X]; [now left | right; lia]|]. intros md Hm.
        eapply wp_bind; [apply wp_redundant; right; split; assumption|]. intros r Hr. destruct r.
        * set (n1 := with_flags n false (ripe n)). eapply wp_weaken.
          -- apply (IH (set_node i n1 s) n1); [eapply at_set_same; exact Ni | exact Nin' | | exact Cn | exact Lv].
             intros k Hk. destruct (Cen' k Hk) as (mk & Nk & Ck). exists mk. split; [|exact Ck]. apply at_set_other; [intros ->; auto | exact Nk].
          -- intros s' [(-> & _)|(X & _)]; [|discriminate]. right. split; [reflexivity|]. split; [|reflexivity].
             exists j, m, md. split; [now left|]. split; [exact Nj|]. split; [now apply Hx|]. split; [exact Hm | now apply Hr].
        * eapply wp_weaken; [apply (IH s n); assumption|]. intros s' [(-> & H)|(_ & H & ->)].
          -- left. split; [reflexivity|]. right. destruct H as [H|H]; [congruence|]. intros (k & mk & mdk & [<-|Hk] & Nk & Rk & Mk & Near).
             ++ assert (mk = m) by (unfold node_at in Nk; congruence). assert (mdk = md) by congruence. subst. apply Hr in Near. discriminate.
             ++ apply H. exists k, mk, mdk. auto.
          -- right. split; [reflexivity|]. split; [|reflexivity]. destruct H as (k & mk & mdk & Hk & Rest). exists k, mk, mdk. split; [now right | exact Rest].
      + eapply wp_weaken; [apply (IH s n); assumption|]. intros s' [(-> & H)|(_ & H & ->)].
        * left. split; [reflexivity|]. right. destruct H as [H|H]; [congruence|]. intros (k & mk & mdk & [<-|Hk] & Nk & Rk & Mk & Near).
          -- assert (mk = m) by (unfold node_at in Nk; congruence). subst. apply Hx in Rk. discriminate.
          -- apply H. exists k, mk, mdk. auto.
        * right. split; [reflexivity|]. split; [|reflexivity]. destruct H as (k & mk & mdk & Hk & Rest). exists k, mk, mdk. split; [now right | exact Rest].
  Qed.

  Definition centred (n n' : node) : Prop := n' = with_flags (with_center n) (alive n') (ripe n).

  Lemma trim_loop_ok live : forall processed dead s, NoDup (processed ++ live) -> (forall i, In i (processed ++ live) -> ~ In i dead) ->
    (forall i, In i live -> exists n, node_at s i n /\ alive n = true /\ level n < 3) ->
    (forall j, In j (dead ++ processed) -> exists m, node_at s j m /\ center m <> Missing) ->
    wp E (trim_loop drv C live processed dead s) (fun s' =>
      pointwise centred (fun i => In i live) s s' /\ hcost s' = hcost s /\
      forall pre i post n', live = pre ++ i :: post -> node_at s' i n' ->
        (alive n' = false <-> exists j m md, node_at s' j m /\ ((In j dead /\ ripe m = true) \/ In j (processed ++ pre)) /\
           nth_error (min_dists C) (level n') = Some md /\ near md (center m) (center n'))).
  Proof.
    induction live as [|i live IH]; intros processed dead s ND Dis Live Cen; cbn [trim_loop].
    - cbn. split; [|split; [reflexivity|]].
      + do 3 (split; [reflexivity|]). intros j n H. exists n. split; [exact H|]. split; [intros [] | reflexivity].
      + intros pre k post n' X. destruct pre; discriminate.
    - destruct (Live i (or_introl eq_refl)) as (n & Ni & An & Lv). unfold get. unfold node_at in Ni. rewrite Ni. cbn [bind].
      set (s0 := set_node i (with_center n) s). set (n0 := with_center n).
      assert (Ndead : ~ In i dead) by (apply Dis; apply in_or_app; right; now left).
      assert (Nproc : ~ In i processed) by (apply NoDup_remove_2 in ND; intros X; apply ND; apply in_or_app; now left).
      assert (Nlive : ~ In i live) by (apply NoDup_remove_2 in ND; intros X; apply ND; apply in_or_app; now right).
      assert (N0 : node_at s0 i n0) by (eapply at_set_same; exact Ni).
      eapply wp_bind.
      { apply (compare_ok (dead ++ processed) processed i s0 n0); [exact N0 | intros X; apply in_app_or in X; tauto | | apply mean_present | exact Lv].
        intros j Hj. destruct (Cen j Hj) as (m & Nj & Cm). exists m. split; [|exact Cm]. apply at_set_other; [intros <-; apply in_app_or in Hj; tauto | exact Nj]. }
      intros s1 H1.
      assert (X1 : exists n1, node_at s1 i n1 /\ n1 = with_flags n0 (alive n1) (ripe n) /\ level_nodes s1 = level_nodes s /\ min_progress_ratio s1 = min_progress_ratio s /\
         hcost s1 = hcost s /\ length (nodes s1) = length (nodes s) /\ (forall j m, i <> j -> node_at s1 j m <-> node_at s j m) /\ (alive n1 = false <-> hits s0 n0 (dead ++ processed) processed)).
      { destruct H1 as [(-> & H)|(_ & H & ->)].
        - exists n0. split; [exact N0|]. split; [unfold n0; cbn; rewrite An; destruct n; cbn in *; now subst|]. split; [reflexivity|]. split; [reflexivity|]. split; [reflexivity|].
          split; [cbn; apply set_nth_length|]. split; [intros j m Hj; now apply at_set_other|]. unfold n0. cbn [alive HgsModel.with_center]. rewrite An. split; [discriminate|].
          intros X. exfalso. destruct H as [H|H]; [cbn in H; congruence | auto].
        - exists (with_flags n0 false (ripe n0)). split; [eapply at_set_same; exact N0|]. split; [reflexivity|]. split; [reflexivity|]. split; [reflexivity|]. split; [reflexivity|].
          split; [cbn; rewrite !set_nth_length; reflexivity|]. split; [intros j m Hj; rewrite at_set_other by exact Hj; now apply at_set_other|]. split; auto. }
      destruct X1 as (n1 & N1 & En1 & Ln1 & Mp1 & Hc1 & Le1 & Oth1 & Alive1).
      assert (Cn1 : center n1 <> Missing) by (rewrite En1; cbn; apply mean_present).
      eapply wp_weaken.
      + apply (IH (processed ++ [i]) dead s1).
        * rewrite <- app_assoc. exact ND.
        * intros k Hk. apply Dis. rewrite <- app_assoc in Hk. exact Hk.
        * intros k Hk. destruct (Live k (or_intror Hk)) as (m & Nk & Ak & Lk). exists m. split; [|auto]. apply Oth1; [intros ->; auto | exact Nk].
        * intros j Hj. destruct (Nat.eq_dec i j) as [<-|Ne]; [exists n1; auto|]. destruct (Cen j) as (m & Nj & Cm).
          { apply in_app_or in Hj. apply in_or_app. destruct Hj as [Hj|Hj]; [now left|]. apply in_app_or in Hj. destruct Hj as [Hj|[Hj|[]]]; [now right | congruence]. }
          exists m. split; [now apply Oth1 | exact Cm].
      + intros s' ((Le & Ln & Mp & Pw) & Hc & Rule). split; [|split; [congruence|]].
        * split; [congruence|]. split; [congruence|]. split; [congruence|]. intros j m Hm. destruct (Nat.eq_dec i j) as [<-|Ne].
          -- assert (m = n) by (unfold node_at in Hm; congruence). subst m. destruct (Pw i n1 N1) as (n' & N' & _ & U). specialize (U Nlive). subst n'.
             exists n1. split; [exact N'|]. split; [intros _; exact En1 | intros X; exfalso; apply X; now left].
          -- destruct (Pw j m) as (m' & Nm' & T & U); [now apply Oth1|]. exists m'. split; [exact Nm'|]. split; [intros [X|X]; [congruence | now apply T] | intros X; apply U; intros Y; apply X; now right].
        * intros pre k post n' El Nk. destruct pre as [|a pre]; cbn [app] in El; injection El as El1 El2.
          -- subst k post. rewrite app_nil_r. destruct (Pw i n1 N1) as (n'' & N'' & _ & U). specialize (U Nlive). subst n''.
             assert (n' = n1) by (unfold node_at in *; congruence). subst n'. rewrite Alive1.
             assert (Cen1 : center n1 = center n0) by (rewrite En1; reflexivity). assert (Lev1 : level n1 = level n0) by (rewrite En1; reflexivity). rewrite Cen1, Lev1.
             assert (Same : forall j m, i <> j -> ~ In j live -> node_at s' j m <-> node_at s0 j m).
             { intros j m Hj Hl. unfold s0. rewrite (at_set_other s i _ j m Hj). split.
               - intros X. destruct (nth_error (nodes s) j) as [m0|] eqn:Em0.
                 + destruct (Pw j m0) as (m1 & Nm1 & _ & U1); [now apply Oth1|]. specialize (U1 Hl). subst m1. unfold node_at in *. congruence.
                 + apply nth_error_None in Em0. unfold node_at in X. assert (j < length (nodes s')) by (apply nth_error_Some; congruence). lia.
               - intros X. destruct (Pw j m) as (m1 & Nm1 & _ & U1); [now apply Oth1|]. specialize (U1 Hl). now subst m1. }
             assert (Dj : forall j, In j dead \/ In j processed -> i <> j /\ ~ In j live).
             { intros j [X|X]; split.
               - intros <-. auto.
               - intros Y. eapply Dis; [|exact X]. apply in_or_app. right. now right.
               - intros <-. auto.
               - intros Y. revert ND. rewrite <- Permutation_middle. intros ND. inversion ND as [|? ? _ ND']; subst.
                 apply NoDup_app_inv in ND'. destruct ND' as (_ & _ & ND'). exact (ND' j X Y). }
             unfold hits. split; intros (j & m & md & H).
             ++ destruct H as (H1' & H2 & H3 & H4 & H5). exists j, m, md. apply in_app_or in H1'. destruct (Dj j H1') as (D1 & D2). split; [now apply Same|]. split; [|auto].
                destruct H1' as [X|X]; [|now right]. destruct H3 as [Y|Y]; [left; auto | now right].
             ++ destruct H as (H2 & H3 & H4 & H5). exists j, m, md. assert (X : In j dead \/ In j processed) by tauto. destruct (Dj j X) as (D1 & D2).
                split; [now apply in_or_app|]. split; [now apply Same|]. split; [|auto]. destruct H3 as [(_ & Y)|Y]; auto.
          -- subst a. rewrite (Rule pre k post n' El2 Nk). rewrite <- app_assoc. reflexivity.
  Qed.

  Definition recentred (n n' : node) : Prop := if alive n then centred n n' else n' = n.

  Lemma trim_redundant_ok ids s : StronglySorted lt ids ->
    (forall i, In i ids -> exists n, node_at s i n /\ level n < 3 /\ (alive n = true \/ center n <> Missing)) ->
    wp E (trim_redundant drv C ids s) (fun s' => pointwise recentred (fun i => In i ids) s s' /\ hcost s' = hcost s /\
      forall i n n', In i ids -> node_at s i n -> alive n = true -> node_at s' i n' ->
        (alive n' = false <-> exists j m0 m md, In j ids /\ node_at s j m0 /\ node_at s' j m /\ ((alive m0 = false /\ ripe m = true) \/ (alive m0 = true /\ j < i)) /\
           nth_error (min_dists C) (level n') = Some md /\ near md (center m) (center n'))).
  Proof.
    intros So H. assert (ND := sorted_NoDup _ So). unfold trim_redundant. set (live := filter (alive_in drv s) ids). set (dead := filter (fun i => negb (alive_in drv s i)) ids).
    assert (Il : forall i n, node_at s i n -> (In i live <-> In i ids /\ alive n = true)).
    { intros i n Hn. unfold live. rewrite filter_In. unfold alive_in. unfold node_at in Hn. rewrite Hn. reflexivity. }
    assert (Id : forall i n, node_at s i n -> (In i dead <-> In i ids /\ alive n = false)).
    { intros i n Hn. unfold dead. rewrite filter_In. unfold alive_in. unfold node_at in Hn. rewrite Hn, negb_true_iff. reflexivity. }
    eapply wp_weaken.
    - apply (trim_loop_ok live [] dead s).
      + cbn. now apply NoDup_filter.
      + intros i Hi Hd. cbn in Hi. unfold live in Hi. unfold dead in Hd. apply filter_In in Hi, Hd. destruct Hi as (_ & X), Hd as (_ & Y). rewrite X in Y. discriminate.
      + intros i Hi. assert (Hi' := Hi). unfold live in Hi. apply filter_In in Hi. destruct Hi as (Hi & _). destruct (H i Hi) as (n & Hn & Lv & _). exists n. split; [exact Hn|]. split; [|exact Lv]. now apply (Il i n Hn).
      + intros j Hj. rewrite app_nil_r in Hj. assert (Hj' := Hj). unfold dead in Hj. apply filter_In in Hj. destruct Hj as (Hj & _). destruct (H j Hj) as (m & Hm & _ & Cm). exists m. split; [exact Hm|].
        destruct (proj1 (Id j m Hm) Hj') as (_ & X). destruct Cm as [Cm|Cm]; [congruence | exact Cm].
    - intros s' ((Le & Ln & Mp & Pw) & Hc & Rule). split; [|split; [exact Hc|]].
      + do 3 (split; [assumption|]). intros i n Hn. destruct (Pw i n Hn) as (n' & Hn' & T & U). exists n'. split; [exact Hn'|]. specialize (Il i n Hn). split.
        * intros Hi. unfold recentred. destruct (alive n) eqn:A; [apply T; tauto | apply U; intros X; apply Il in X; destruct X; discriminate].
        * intros Hi. apply U. tauto.
      + intros i n n' Hi Hn An Hn'. destruct (in_split _ _ Hi) as (pre & post & Ei).
        assert (El : live = filter (alive_in drv s) pre ++ i :: filter (alive_in drv s) post).
        { unfold live. rewrite Ei, filter_app. cbn. unfold alive_in at 2. unfold node_at in Hn. rewrite Hn, An. reflexivity. }
        rewrite (Rule _ i _ n' El Hn'). cbn [app].
        assert (At0 : forall j m, node_at s' j m -> exists m0, node_at s j m0).
        { intros j m Hm. destruct (nth_error (nodes s) j) as [m0|] eqn:X; [exists m0; exact X|]. apply nth_error_None in X. unfold node_at in Hm. assert (j < length (nodes s')) by (apply nth_error_Some; congruence). lia. }
        split; intros (j & R).
        * destruct R as (m & md & Hm & R & Hmd' & Near). destruct (At0 j m Hm) as (m0 & Hm0). exists j, m0, m, md.
          assert (X : In j ids /\ ((alive m0 = false /\ ripe m = true) \/ (alive m0 = true /\ j < i))).
          { destruct R as [(R1 & R2)|R].
            - apply (Id j m0 Hm0) in R1. tauto.
            - apply filter_In in R. destruct R as (R1 & R2). unfold alive_in in R2. unfold node_at in Hm0. rewrite Hm0 in R2. apply (sorted_before ids i j pre post So Ei) in R1. tauto. }
          tauto.
        * destruct R as (m0 & m & md & Ij & Hm0 & Hm & R & Hmd' & Near). exists j, m, md. split; [exact Hm|]. split; [|auto]. destruct R as [(R1 & R2)|(R1 & R2)].
          -- left. split; [apply (Id j m0 Hm0); auto | exact R2].
          -- right. apply filter_In. split; [apply (sorted_before ids i j pre post So Ei); auto|]. unfold alive_in. unfold node_at in Hm0. now rewrite Hm0.
  Qed.

  (** ---- trimming a level, then all ---- *)
  Definition trimmed (mpr : list Q) (n n' : node) : Prop :=
    if alive n then n' = with_flags (with_center n) (alive n') (ripe n') /\ (alive n' = true -> ripe n' = false) /\ (ripe n' = true <-> stagnates mpr n) else n' = n.

  Definition rival (s s' : hgs) (i : nat) (n' : node) : Prop :=
    exists j m0 m md, node_at s j m0 /\ level m0 = level n' /\ node_at s' j m /\ (ripe m = true \/ (alive m0 = true /\ j < i)) /\
      nth_error (min_dists C) (level n') = Some md /\ near md (center m) (center n').
  Definition level_rule (s s' : hgs) (lv : nat) : Prop :=
    forall i n n', node_at s i n -> level n = lv -> alive n = true -> node_at s' i n' ->
      (alive n' = true <-> ~ stagnates (min_progress_ratio s) n /\ ~ rival s s' i n').

  Lemma trimmed_same mpr n n' : trimmed mpr n n' -> level n' = level n /\ sprouts n' = sprouts n /\ current_cost n' = current_cost n /\ driver n' = driver n /\ population n' = population n /\
     delegates n' = delegates n /\ relative_hypervolume n' = relative_hypervolume n /\ hypervolume n' = hypervolume n /\ old_hypervolume n' = old_hypervolume n.
  Proof. unfold trimmed. destruct (alive n); [intros (-> & _)|intros ->]; repeat split; reflexivity. Qed.
  Lemma trimmed_base mpr n n' : base n -> trimmed mpr n n' -> base n'.
  Proof.
    intros B T. destruct (trimmed_same _ _ _ T) as (E1 & E2 & E3 & E4 & E5 & E6 & E7 & E8 & E9). destruct B. constructor; rewrite ?E4, ?E5, ?E6, ?E7, ?E8, ?E9; auto.
    unfold trimmed in T. destruct (alive n) eqn:A; [|subst; auto]. destruct T as (_ & T & _). destruct (alive n'); auto. intros R. rewrite T in R by reflexivity. discriminate.
  Qed.
  Lemma trimmed_center mpr n n' : (alive n = true \/ center n = mean (population n)) -> trimmed mpr n n' -> center n' = mean (population n').
  Proof. unfold trimmed. destruct (alive n); [intros _ (-> & _); reflexivity|]. intros [X|X] ->; [discriminate | exact X]. Qed.

  Lemma trim_all_ok top s lv : lv < 3 -> well_formed top s -> (forall i n, node_at s i n -> base n /\ (level n = lv -> alive n = true \/ center n = mean (population n))) -> E \/ 3 <= length (min_progress_ratio s) ->
    wp E (trim_all drv EPSILON C s lv) (fun s' => pointwise (trimmed (min_progress_ratio s)) (fun i => exists n, node_at s i n /\ level n = lv) s s' /\ hcost s' = hcost s /\ level_rule s s' lv).
  Proof.
    intros Llv W B Mp3. unfold trim_all. set (mpr := min_progress_ratio s) in *.
    eapply wp_bind; [apply wp_get; right; rewrite (wf_three _ _ W); exact Llv|]. intros ids Hids. destruct (wf_listed _ _ W _ _ Hids) as (So & Lst).
    eapply wp_bind.
    { apply trim_not_progressing_ok; [now apply sorted_NoDup|]. intros i Hi. apply Lst in Hi. destruct Hi as (n & Hn & Ln). exists n. split; [exact Hn|]. split; [now apply (B i n Hn)|].
      destruct Mp3 as [X|X]; [now left | right; fold mpr; lia]. }
    intros s1 ((Le1 & Ln1 & Mp1 & Pw1) & Hc1). fold mpr in Pw1.
    assert (Lk : forall i n n1, node_at s i n -> node_at s1 i n1 -> (level n = lv -> lacks mpr n n1) /\ (level n <> lv -> n1 = n)).
    { intros i n n1 Hn Hn1. destruct (Pw1 i n Hn) as (x & Hx & T & U). assert (x = n1) by (unfold node_at in *; congruence). subst x. split.
      - intros L. apply T. apply Lst. exists n. auto.
      - intros L. apply U. intros X. apply Lst in X. destruct X as (y & Hy & Ly). assert (y = n) by (unfold node_at in *; congruence). subst. auto. }
    assert (Back1 : forall i n1, node_at s1 i n1 -> exists n, node_at s i n).
    { intros i n1 X. destruct (nth_error (nodes s) i) as [n|] eqn:Y; [exists n; exact Y|]. apply nth_error_None in Y. unfold node_at in X. assert (i < length (nodes s1)) by (apply nth_error_Some; congruence). lia. }
    eapply wp_weaken.
    - apply (trim_redundant_ok ids s1 So). intros i Hi. apply Lst in Hi. destruct Hi as (n & Hn & Lvn). destruct (Pw1 i n Hn) as (n1 & Hn1 & _). destruct (Lk i n n1 Hn Hn1) as (LA & _). specialize (LA Lvn).
      exists n1. split; [exact Hn1|]. destruct (B i n Hn) as (Bn & Cn). specialize (Cn Lvn). unfold lacks in LA. destruct (alive n) eqn:A.
      + destruct LA as [(_ & ->)|(_ & ->)]; [split; [cbn; lia | right; apply mean_present] | split; [lia | now left]].
      + subst n1. split; [lia|]. right. destruct Cn as [Cn|Cn]; [discriminate | rewrite Cn; apply mean_present].
    - intros s' ((Le & Ln & Mp & Pw) & Hc & Rule).
      assert (Tr : forall i n, node_at s i n -> exists n1 n', node_at s1 i n1 /\ node_at s' i n' /\ (level n = lv -> lacks mpr n n1 /\ recentred n1 n' /\ trimmed mpr n n') /\ (level n <> lv -> n' = n)).
      { intros i n Hn. destruct (Pw1 i n Hn) as (n1 & Hn1 & _). destruct (Pw i n1 Hn1) as (n' & Hn' & T & U). destruct (Lk i n n1 Hn Hn1) as (L1 & L2). destruct (B i n Hn) as (Bn & _).
        exists n1, n'. split; [exact Hn1|]. split; [exact Hn'|]. split.
        - intros L. specialize (L1 L). assert (RT : recentred n1 n') by (apply T; apply Lst; exists n; auto). split; [exact L1|]. split; [exact RT|].
          unfold lacks in L1. unfold recentred in RT. unfold trimmed. destruct (alive n) eqn:A.
          + destruct L1 as [(St & ->)|(St & ->)].
            * cbn in RT. subst n'. cbn. split; [reflexivity|]. split; [discriminate|]. tauto.
            * rewrite A in RT. unfold centred in RT. assert (R : ripe n = false) by (destruct (ripe n) eqn:R; [rewrite (b_ripe _ _ _ _ Bn R) in A; discriminate | reflexivity]).
              assert (R' : ripe n' = false) by (rewrite RT; exact R). rewrite R'. split; [rewrite RT at 1; rewrite R; reflexivity|]. split; [reflexivity|]. split; [discriminate | tauto].
          + subst n1. rewrite A in RT. exact RT.
        - intros L. rewrite U; [auto|]. intros X. apply Lst in X. destruct X as (y & Hy & Ly). assert (y = n) by (unfold node_at in *; congruence). subst. auto. }
      split; [|split; [congruence|]].
      + split; [congruence|]. split; [congruence|]. split; [congruence|]. intros i n Hn. destruct (Tr i n Hn) as (n1 & n' & _ & Hn' & T1 & T2). exists n'. split; [exact Hn'|]. split.
        * intros (y & Hy & Ly). assert (y = n) by (unfold node_at in *; congruence). subst y. now apply T1.
        * intros X. apply T2. intros Y. apply X. eauto.
      + intros i n n' Hn Lv An Hn'. fold mpr. destruct (Tr i n Hn) as (n1 & x & Hn1 & Hx & T1 & _). assert (x = n') by (unfold node_at in *; congruence). subst x. destruct (T1 Lv) as (L1 & R1 & T).
        assert (Ii : In i ids) by (apply Lst; eauto). assert (Lv' : level n' = lv) by (rewrite (proj1 (trimmed_same _ _ _ T)); exact Lv).
        unfold lacks in L1. rewrite An in L1. destruct L1 as [(St & En1)|(St & En1)].
        * unfold recentred in R1. rewrite En1 in R1. cbn in R1. rewrite R1. cbn. split; [discriminate | tauto].
        * subst n1. specialize (Rule i n n' Ii Hn1 An Hn').
          assert (Eq : (exists j m0 m md, In j ids /\ node_at s1 j m0 /\ node_at s' j m /\ (alive m0 = false /\ ripe m = true \/ alive m0 = true /\ j < i) /\ nth_error (min_dists C) (level n') = Some md /\ near md (center m) (center n')) <-> rival s s' i n').
          { unfold rival. split.
            - intros (j & m1 & m & md & Ij & Hm1 & Hm & R & Rest). apply Lst in Ij. destruct Ij as (m0 & Hm0 & Lm0). exists j, m0, m, md. rewrite Lv'. split; [exact Hm0|]. split; [exact Lm0|]. split; [exact Hm|]. rewrite Lv' in Rest. split; [|exact Rest].
              destruct R as [(_ & R)|(R1' & R2)]; [now left|]. right. split; [|exact R2]. destruct (Lk j m0 m1 Hm0 Hm1) as (LA & _). specialize (LA Lm0). unfold lacks in LA. destruct (alive m0) eqn:A0; [reflexivity|]. subst m1. congruence.
            - intros (j & m0 & m & md & Hm0 & Lm0 & Hm & R & Rest). rewrite Lv' in Lm0. destruct (Tr j m0 Hm0) as (m1 & y & Hm1 & Hy & T1' & _). assert (y = m) by (unfold node_at in *; congruence). subst y. destruct (T1' Lm0) as (LA & RC & TT).
              exists j, m1, m, md. split; [apply Lst; eauto|]. split; [exact Hm1|]. split; [exact Hm|]. split; [|exact Rest]. destruct (B j m0 Hm0) as (B0 & _).
              assert (Mr : ripe m = true -> alive m1 = false).
              { intros Rm. unfold lacks in LA. unfold recentred in RC. destruct (alive m0) eqn:A0.
                - destruct LA as [(_ & ->)|(_ & ->)]; [reflexivity|]. rewrite A0 in RC. unfold centred in RC. rewrite RC in Rm. cbn in Rm. now apply (b_ripe _ _ _ _ B0).
                - now subst m1. }
              destruct (ripe m) eqn:Rm; [left; auto|]. destruct R as [R|(R1' & R2)]; [discriminate|]. right. split; [|exact R2].
              unfold lacks in LA. rewrite R1' in LA. destruct LA as [(_ & Em)|(_ & ->)]; [|exact R1']. unfold recentred in RC. rewrite Em in RC. cbn in RC. rewrite RC in Rm. discriminate. }
          rewrite Eq in Rule. destruct (alive n') eqn:A'.
          -- split; [|reflexivity]. intros _. split; [exact St|]. intros X. apply Rule in X. discriminate.
          -- split; [discriminate|]. intros (_ & X). exfalso. apply X. now apply Rule.
  Qed.

  Lemma pointwise_wf (R : node -> node -> Prop) (T : nat -> Prop) top (s s' : hgs) : (forall n n', R n n' -> level n' = level n /\ sprouts n' = sprouts n) -> pointwise R T s s' -> (forall i, T i \/ ~ T i) -> well_formed top s -> well_formed top s'.
  Proof.
    clear Hmd. intros HR (Le & Ln & _ & Pw) Dec W.
    assert (F : forall i n, node_at s i n -> exists n', node_at s' i n' /\ level n' = level n /\ sprouts n' = sprouts n).
    { intros i n H. destruct (Pw i n H) as (n' & H' & A & B). exists n'. split; [exact H'|]. destruct (Dec i) as [X|X]; [now apply HR; apply A | rewrite (B X); auto]. }
    assert (G : forall i n', node_at s' i n' -> exists n, node_at s i n /\ level n' = level n /\ sprouts n' = sprouts n).
    { intros i n' H. destruct (nth_error (nodes s) i) as [n|] eqn:X.
      - destruct (F i n X) as (y & Hy & Y). assert (y = n') by (unfold node_at in *; congruence). subst. exists n. auto.
      - apply nth_error_None in X. assert (i < length (nodes s')) by (apply nth_error_Some; unfold node_at in H; congruence). lia. }
    constructor.
    - destruct (wf_root _ _ W) as (n & H & L). destruct (F 0 n H) as (n' & H' & X & _). exists n'. split; [exact H' | congruence].
    - rewrite Ln. apply (wf_three _ _ W).
    - intros l ids H. rewrite Ln in H. destruct (wf_listed _ _ W l ids H) as (So & Lst). split; [exact So|]. intros i. rewrite Lst. split.
      + intros (n & Hn & L). destruct (F i n Hn) as (n' & H' & X & _). exists n'. split; [exact H' | congruence].
      + intros (n' & Hn' & L). destruct (G i n' Hn') as (n & Hn & X & _). exists n. split; [exact Hn | congruence].
    - intros i n' H. destruct (G i n' H) as (n & Hn & X & _). rewrite X. now apply (wf_levels _ _ W i).
    - intros i n' H Pos. destruct (G i n' H) as (n & Hn & X & _). destruct (wf_parent _ _ W i n Hn Pos) as (p & m & Hm & Lt & Im & Lm & Un). destruct (F p m Hm) as (m' & Hm' & Xm & Ym).
      exists p, m'. split; [exact Hm'|]. split; [exact Lt|]. rewrite Ym. split; [exact Im|]. split; [congruence|]. intros q mq Hq Iq. destruct (G q mq Hq) as (mq0 & Hq0 & _ & Yq). rewrite Yq in Iq. eapply Un; eassumption.
    - intros p m' H. destruct (G p m' H) as (m & Hm & _ & Y). rewrite Y, Le. now apply (wf_sprouts _ _ W p).
  Qed.

  Lemma trim_sprouts_ok top (s : hgs) : well_formed top s -> (forall i n, node_at s i n -> base n /\ (alive n = true \/ center n = mean (population n))) -> E \/ 3 <= length (min_progress_ratio s) ->
    wp E (trim_sprouts drv EPSILON C s) (fun s' => pointwise (trimmed (min_progress_ratio s)) (fun _ => True) s s' /\ hcost s' = hcost s /\ forall lv, level_rule s s' lv).
  Proof.
    intros W B Mp3. unfold trim_sprouts. set (mpr := min_progress_ratio s).
    pose (I := fun (don : list nat) s' => pointwise (trimmed mpr) (fun i => exists n, node_at s i n /\ In (level n) don) s s' /\ hcost s' = hcost s /\ forall lv, In lv don -> level_rule s s' lv).
    assert (Step : forall don lv s1, ~ In lv don -> lv < 3 -> I don s1 -> wp E (trim_all drv EPSILON C s1 lv) (I (don ++ [lv]))).
    { intros don lv s1 Nl Llv (Pw & Hc & Rl). assert (Pw0 := Pw). destruct Pw0 as (Le & Ln & Mp & P).
      assert (Dec : forall i, (exists n, node_at s i n /\ In (level n) don) \/ ~ (exists n, node_at s i n /\ In (level n) don)).
      { intros i. destruct (nth_error (nodes s) i) as [n|] eqn:X; [|right; intros (n & Hn & _); unfold node_at in Hn; congruence].
        destruct (in_dec Nat.eq_dec (level n) don); [left; exists n; auto | right; intros (m & Hm & Im); unfold node_at in Hm; congruence]. }
      assert (W1 : well_formed top s1).
      { apply (pointwise_wf (trimmed mpr) (fun i => exists n, node_at s i n /\ In (level n) don) top s s1); [|exact Pw | exact Dec | exact W]. intros n n' T. destruct (trimmed_same mpr n n' T) as (X & Y & _). now split. }
      assert (Back : forall i n1, node_at s1 i n1 -> exists n, node_at s i n /\ ((In (level n) don /\ trimmed mpr n n1) \/ (~ In (level n) don /\ n1 = n))).
      { intros i n1 X. destruct (nth_error (nodes s) i) as [n|] eqn:Y.
        - exists n. split; [exact Y|]. destruct (P i n Y) as (x & Hx & T & U). assert (x = n1) by (unfold node_at in *; congruence). subst x.
          destruct (in_dec Nat.eq_dec (level n) don) as [Z|Z]; [left; split; [exact Z | apply T; exists n; split; [exact Y | exact Z]] | right; split; [exact Z|]]. apply U. intros (m & Hm & Im). unfold node_at in Hm. congruence.
        - apply nth_error_None in Y. unfold node_at in X. assert (i < length (nodes s1)) by (apply nth_error_Some; congruence). lia. }
      eapply wp_weaken.
      - apply (trim_all_ok top s1 lv Llv W1).
        + intros i n1 H1. destruct (Back i n1 H1) as (n & Hn & [(In1 & T)|(In1 & ->)]).
          * split; [eapply trimmed_base; [now apply (B i n Hn) | exact T]|]. intros L. exfalso. apply Nl. rewrite <- L, (proj1 (trimmed_same _ _ _ T)). exact In1.
          * destruct (B i n Hn). auto.
        + rewrite Mp. exact Mp3.
      - intros s2 (Pw2 & Hc2 & Rl2). rewrite Mp in Pw2. fold mpr in Pw2. destruct Pw2 as (Le2 & Ln2 & Mp2 & P2).
        assert (Pt : forall i n, node_at s i n -> exists n1 n2, node_at s1 i n1 /\ node_at s2 i n2 /\ (In (level n) don -> trimmed mpr n n1 /\ n2 = n1) /\ (level n = lv -> n1 = n /\ trimmed mpr n n2) /\ (~ In (level n) (don ++ [lv]) -> n2 = n)).
        { intros i n Hn. destruct (P i n Hn) as (n1 & H1 & T & U). destruct (P2 i n1 H1) as (n2 & H2 & T2 & U2). exists n1, n2. split; [exact H1|]. split; [exact H2|].
          assert (Un : forall m, node_at s i m -> m = n) by (unfold node_at in *; congruence). assert (Un1 : forall m, node_at s1 i m -> m = n1) by (unfold node_at in *; congruence).
          assert (NI : ~ In (level n) don -> n1 = n) by (intros X; apply U; intros (m & Hm & Im); rewrite (Un m Hm) in Im; auto).
          split; [|split].
          - intros X. assert (T1 : trimmed mpr n n1) by (apply T; eauto). split; [exact T1|]. apply U2. intros (m & Hm & Lm). rewrite (Un1 m Hm) in Lm. apply Nl. rewrite <- Lm. rewrite (proj1 (trimmed_same _ _ _ T1)). exact X.
          - intros X. assert (Y : n1 = n) by (apply NI; intros Y; apply Nl; rewrite <- X; exact Y). split; [exact Y|]. subst n1. apply T2. eauto.
          - intros X. assert (Y : n1 = n) by (apply NI; intros Y; apply X; apply in_or_app; now left). rewrite <- Y. apply U2. intros (m & Hm & Lm). rewrite (Un1 m Hm), Y in Lm. apply X. apply in_or_app. right. now left. }
        split; [|split; [congruence|]].
        + split; [congruence|]. split; [congruence|]. split; [congruence|]. intros i n Hn. destruct (Pt i n Hn) as (n1 & n2 & H1 & H2 & A1 & A2 & A3). exists n2. split; [exact H2|].
          assert (Un : forall m, node_at s i m -> m = n) by (unfold node_at in *; congruence). split.
          * intros (m & Hm & Im). rewrite (Un m Hm) in Im. apply in_app_or in Im. destruct Im as [Im|[Im|[]]]; [destruct (A1 Im) as (X & ->); exact X | destruct (A2 (eq_sym Im)) as (_ & X); exact X].
          * intros X. apply A3. intros Y. apply X. eauto.
        + intros lv' Ilv. unfold level_rule. fold mpr. intros i n n' Hn Lvn An Hn'.
          assert (Riv : forall (sa sb : hgs) x, (forall j m0, node_at sa j m0 -> level m0 = level x -> node_at s j m0 /\ forall m, node_at sb j m -> node_at s2 j m) ->
            (forall j m0, node_at s j m0 -> level m0 = level x -> node_at sa j m0 /\ forall m, node_at s2 j m -> node_at sb j m) -> (rival sa sb i x <-> rival s s2 i x)).
          { intros sa sb x F1 F2. unfold rival. split; intros (j & m0 & m & md & Hm0 & Lm & Hm & R); exists j, m0, m, md.
            - destruct (F1 j m0 Hm0 Lm) as (Y1 & Y2). split; [exact Y1|]. split; [exact Lm|]. split; [now apply Y2 | exact R].
            - destruct (F2 j m0 Hm0 Lm) as (Y1 & Y2). split; [exact Y1|]. split; [exact Lm|]. split; [now apply Y2 | exact R]. }
          destruct (Pt i n Hn) as (n1 & n2 & H1 & H2 & A1 & A2 & _). assert (n2 = n') by (unfold node_at in *; congruence). subst n2.
          apply in_app_or in Ilv. destruct Ilv as [Ilv|[<-|[]]].
          * rewrite <- Lvn in Ilv. destruct (A1 Ilv) as (T1 & ->).
            rewrite (Rl (level n) Ilv i n n1 Hn eq_refl An H1). fold mpr. apply and_iff_compat_l. apply not_iff_compat.
            rewrite (Riv s s1 n1); [reflexivity | |]; intros j m0 Hm0 Lm; rewrite (proj1 (trimmed_same _ _ _ T1)) in Lm; destruct (Pt j m0 Hm0) as (m1 & m2 & Hm1 & Hm2 & X1 & _); rewrite <- Lm in Ilv; destruct (X1 Ilv) as (_ & ->); (split; [exact Hm0 | unfold node_at in *; congruence]).
          * destruct (A2 Lvn) as (-> & T2). assert (Ln' : level n' = lv) by (rewrite (proj1 (trimmed_same _ _ _ T2)); exact Lvn).
            assert (X := Rl2 i n n' H1 Lvn An H2). rewrite Mp in X. fold mpr in X. rewrite X. apply and_iff_compat_l. apply not_iff_compat.
            apply (Riv s1 s2 n').
            -- intros j m0 Hm0 Lm. rewrite Ln' in Lm. destruct (Back j m0 Hm0) as (m & Hm & [(Z1 & Z2)|(Z1 & ->)]).
               ++ exfalso. apply Nl. rewrite <- Lm, (proj1 (trimmed_same _ _ _ Z2)). exact Z1.
               ++ split; [exact Hm | auto].
            -- intros j m0 Hm0 Lm. rewrite Ln' in Lm. destruct (Pt j m0 Hm0) as (m1 & m2 & Hm1 & Hm2 & _ & X2 & _). destruct (X2 Lm) as (-> & _). split; [exact Hm1 | auto]. }
    assert (I0 : I [] s).
    { split; [|split; [reflexivity | intros lv []]]. do 3 (split; [reflexivity|]). intros i n H. exists n. split; [exact H|]. split; [intros (m & _ & []) | reflexivity]. }
    cbn [fold_ok]. eapply wp_bind; [apply (Step [] 2 s); [intros [] | lia | exact I0]|]. intros s1 I1. cbn [app] in I1.
    eapply wp_bind; [apply (Step [2] 1 s1); [intros [X|[]]; discriminate | lia | exact I1]|]. intros s2 I2. cbn [app] in I2.
    eapply wp_bind; [apply (Step [2; 1] 0 s2); [intros [X|[X|[]]]; discriminate | lia | exact I2]|]. intros s3 (Pw & Hc & Rl). cbn [app wp] in *.
    assert (All : forall i n, node_at s i n -> In (level n) [2; 1; 0]).
    { intros i n Hn. destruct (wf_levels _ _ W i n Hn) as (L & _). cbn. lia. }
    destruct Pw as (Le & Ln & Mp & P). split; [|split; [exact Hc|]].
    - do 3 (split; [assumption|]). intros i n Hn. destruct (P i n Hn) as (n' & Hn' & T & _). exists n'. split; [exact Hn'|]. split; [|tauto]. intros _. apply T. exists n. split; [exact Hn | eapply All; exact Hn].
    - intros lv i n n' Hn Lv. assert (Il : In lv [2; 1; 0]) by (rewrite <- Lv; eapply All; exact Hn). exact (Rl lv Il i n n' Hn Lv).
  Qed.
End Trim.
