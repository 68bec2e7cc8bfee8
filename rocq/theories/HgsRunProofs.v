(** Proofs about HGS: steps and runs. *)
From Verif Require Import Spec Base VarModel VarProofs HgsModel HgsSpec HgsProofs HgsTrimProofs HgsReleaseProofs.
From Coq Require Import QArith Lqa.
Local Open Scope nat_scope.

Lemma bind_Ok {A B} (x : outcome A) (k : A -> outcome B) b : bind x k = Ok b -> exists a, x = Ok a /\ k a = Ok b.
Proof. destruct x; cbn; try discriminate. eauto. Qed.
Lemma wp_and_eq {A} E (x : outcome A) P : wp E x P -> wp E x (fun a => x = Ok a /\ P a).
Proof. destruct x; cbn; auto. Qed.

Section Runs.
  Variables drv draw : Type.
  Variable dnew : nat -> draw -> list vec -> option drv.
  Variable dstep : draw -> drv -> option drv.
  Variable dcost : drv -> Z.
  Variable dfinal : draw -> drv -> option (drv * list vec).
  Variable ddelegates : drv -> option (list vec).
  Variable hv_of : list vec -> Q.
  Variable raw : Z -> Z -> Z -> Z -> Z.
  Variable EPSILON : Q.
  Variable C : config.
  Notation hgs := (hgs drv). Notation node := (node drv). Notation step_draws := (step_draws draw).
  Variable E : Prop.
  Variables good ready : drv -> Prop.
  Variable goodv : vec -> Prop.
  Hypothesis Hnew : forall lv d pop, (E \/ exists size, nth_error (population_sizes C) lv = Some size /\ length pop = Nat.max 1 size) -> Forall goodv pop -> wp E (of_option (dnew lv d pop)) good.
  Hypothesis Hmut : forall sel rnd rate v, goodv v -> wp E (of_option (mutate raw sel rnd rate v (dims C))) goodv.
  Hypothesis Hstep : forall x d, good d -> wp E (of_option (dstep x d)) (fun d' => good d' /\ ready d').
  Hypothesis Hfinal : forall x d, good d -> ready d -> wp E (of_option (dfinal x d))
    (fun r => good (fst r) /\ Forall goodv (snd r) /\ wp E (of_option (ddelegates (fst r))) (Forall goodv)).
  Hypothesis Hcfg : E \/ (max_level C <= 2 /\ 3 <= length (metaepoch_lens C) /\ 3 <= length (cost_modifiers C) /\ 3 <= length (min_dists C) /\ 3 <= length (population_sizes C) /\ 3 <= length (mutation_rates C)).
  Hypothesis Hready : (forall d, good d -> ready d) \/ (forall len, In len (metaepoch_lens C) -> 1 <= len).

  Notation wf := (well_formed (max_level C)).
  Notation base := (base drv good goodv).
  Notation total := (total drv C).
  Notation metaepoch_of := (metaepoch_of drv draw dstep dcost dfinal ddelegates hv_of C good goodv).
  Notation trimmed := (trimmed drv EPSILON). Notation level_rule := (level_rule drv EPSILON C).
  Notation pointwise := (pointwise drv). Notation grown := (grown drv good).
  Notation done := (done drv draw dnew raw C).
  Notation run_metaepoch := (run_metaepoch drv draw dstep dcost dfinal ddelegates hv_of C).
  Notation trim_sprouts := (trim_sprouts drv EPSILON C).
  Notation release := (release_new_sprouts drv draw dnew raw C (4 + max_level C)).
  Notation revive_root := (revive_root drv).
  Notation hgs_step := (hgs_step drv draw dnew dstep dcost dfinal ddelegates hv_of raw EPSILON C).
  Notation hgs_run := (hgs_run drv draw dnew dstep dcost dfinal ddelegates hv_of raw EPSILON C).
  Notation hgs_init := (hgs_init drv draw dnew C).

  Record inv (s : hgs) : Prop := {
    i_wf : wf s;
    i_base : forall i n, node_at s i n -> base n;
    i_center : forall i n, node_at s i n -> center n = mean (population n) \/ (population n = [] /\ alive n = true /\ center n = Missing);
    i_mpr : E \/ 3 <= length (min_progress_ratio s);
    i_root : forall n, node_at s 0 n -> alive n = true \/ ripe n = true;
    i_cost : (hcost s == total (nodes s))%Q
  }.

  Lemma total_app a b : (total (a ++ b) == total a + total b)%Q.
  Proof. unfold HgsProofs.total. induction a as [|x a IH]; cbn [app fold_right]; [ring | rewrite IH; ring]. Qed.
  Lemma total_pointwise (a b : list node) : length a = length b -> (forall i n, nth_error a i = Some n -> exists n', nth_error b i = Some n' /\ current_cost n' = current_cost n /\ level n' = level n) -> (total b == total a)%Q.
  Proof.
    revert b. induction a as [|x a IH]; intros [|y b] L H; cbn in L; try discriminate; [reflexivity|].
    destruct (H 0 x eq_refl) as (n' & E1 & E2 & E3). cbn in E1. injection E1 as ->. unfold HgsProofs.total in *. cbn [fold_right]. unfold spent at 1 3. rewrite E2, E3. rewrite (IH b); [reflexivity | lia|].
    intros i n Hn. exact (H (S i) n Hn).
  Qed.
  Lemma grown_total s s' : grown s s' -> (total (nodes s') == total (nodes s))%Q.
  Proof.
    intros G. rewrite <- (firstn_skipn (length (nodes s)) (nodes s')), total_app.
    assert (Z : (total (skipn (length (nodes s)) (nodes s')) == 0)%Q).
    { assert (F : forall n, In n (skipn (length (nodes s)) (nodes s')) -> current_cost n = 0%Z).
      { intros n Hn. apply In_nth_error in Hn. destruct Hn as (i & Hi). assert (Hi' : node_at s' (length (nodes s) + i) n) by (unfold node_at; rewrite <- Hi; clear; revert i; generalize (length (nodes s)), (nodes s'); induction n as [|k IH]; intros [|x l] i; cbn; auto; now destruct i).
        destruct (g_new _ _ _ _ G _ _ Hi') as ((_ & _ & _ & X & _) & _); [lia | exact X]. }
      revert F. generalize (skipn (length (nodes s)) (nodes s')) as l. induction l as [|x l IH]; intros F; [reflexivity|]. unfold HgsProofs.total in *. cbn [fold_right]. unfold spent at 1. rewrite (F x (or_introl eq_refl)), IH by (intros; apply F; now right). ring. }
    rewrite Z. rewrite (total_pointwise (nodes s) (firstn (length (nodes s)) (nodes s'))); [ring | rewrite firstn_length; pose proof (g_len _ _ _ _ G); lia|].
    intros i n Hn. assert (Li : i < length (nodes s)) by (apply nth_error_Some; congruence). destruct (g_old _ _ _ _ G i n Hn) as (ks & Hk). exists (with_sprouts n (sprouts n ++ ks)). split; [|auto].
    unfold node_at in Hk. rewrite <- Hk. symmetry. rewrite <- (firstn_skipn (length (nodes s)) (nodes s')) at 1. apply nth_error_app1. rewrite firstn_length. pose proof (g_len _ _ _ _ G). lia.
  Qed.

  Definition revived (s3 s' : hgs) : Prop :=
    (some_alive s3 /\ s' = s3) \/
    (~ some_alive s3 /\ nodes s' = map (fun n => if ripe n then with_flags drv n true false else n) (nodes s3) /\ level_nodes s' = level_nodes s3 /\ hcost s' = hcost s3 /\
     halve3 (min_progress_ratio s3) = Ok (min_progress_ratio s')).

  Lemma some_alive_bool (s : hgs) : existsb alive (nodes s) = true <-> some_alive s.
  Proof.
    rewrite existsb_exists. split.
    - intros (n & Hn & A). apply In_nth_error in Hn. destruct Hn as (i & Hi). exists i, n. auto.
    - intros (i & n & Hn & A). exists n. split; [eapply nth_error_In; exact Hn | exact A].
  Qed.
  Lemma revive_ok (s : hgs) : E \/ 3 <= length (min_progress_ratio s) -> wp E (revive_root s) (revived s).
  Proof.
    intros H. unfold HgsModel.revive_root. pose proof (some_alive_bool s) as S. destruct (existsb alive (nodes s)).
    - cbn. left. split; [now apply S | reflexivity].
    - destruct (min_progress_ratio s) as [|a [|b [|c r]]] eqn:Em; cbn; try (destruct H as [H|H]; [exact H | cbn in H; lia]).
      right. split; [intros X; apply S in X; discriminate|]. do 3 (split; [reflexivity|]). rewrite Em. reflexivity.
  Qed.

  (** What one step does, stage by stage. *)
  Record stages (D : step_draws) (s s1 s2 s3 s' : hgs) : Prop := {
    st_run : run_metaepoch D s = Ok s1 /\ trim_sprouts s1 = Ok s2 /\ release D s2 0 = Ok s3 /\ revive_root s3 = Ok s';
    st_meta : pointwise metaepoch_of (fun _ => True) s s1;
    st_cost : (hcost s1 - total (nodes s1) == hcost s - total (nodes s))%Q;
    st_trim : pointwise (trimmed (min_progress_ratio s1)) (fun _ => True) s1 s2;
    st_trim_cost : hcost s2 = hcost s1;
    st_rule : forall lv, level_rule s1 s2 lv;
    st_wf : wf s1 /\ wf s2 /\ wf s3;
    st_center : forall i n, node_at s2 i n -> base n /\ center n = mean (population n);
    st_grown : grown s2 s3;
    st_kept : forall j m, node_at s2 j m -> ~ reached s2 0 j -> node_at s3 j m;
    st_done : forall j, reached s2 0 j -> done s2 s3 j;
    st_revived : revived s3 s'
  }.

  Lemma revived_at s3 s' i n : revived s3 s' -> node_at s3 i n -> exists n', node_at s' i n' /\ (n' = n \/ (ripe n = true /\ n' = with_flags drv n true false)).
  Proof.
    intros [(_ & ->)|(_ & Hn & _)] H; [exists n; auto|]. unfold node_at. rewrite Hn, nth_error_map. unfold node_at in H. rewrite H. cbn. destruct (ripe n); eexists; split; try reflexivity; auto.
  Qed.
  Lemma revived_back s3 s' i n' : revived s3 s' -> node_at s' i n' -> exists n, node_at s3 i n /\ (n' = n \/ (ripe n = true /\ n' = with_flags drv n true false)).
  Proof.
    intros R H. assert (L : length (nodes s') = length (nodes s3)) by (destruct R as [(_ & ->)|(_ & Hn & _)]; [reflexivity | rewrite Hn; apply map_length]).
    destruct (nth_error (nodes s3) i) as [n|] eqn:X.
    - exists n. split; [exact X|]. destruct (revived_at s3 s' i n R X) as (y & Hy & Y). assert (y = n') by (unfold node_at in *; congruence). now subst.
    - apply nth_error_None in X. unfold node_at in H. assert (i < length (nodes s')) by (apply nth_error_Some; congruence). lia.
  Qed.

  Lemma root_ids (s : hgs) ids : wf s -> nth_error (level_nodes s) 0 = Some ids -> forall i n, node_at s i n -> level n = 0 -> i = 0.
  Proof. intros W _ i n H L. destruct i; [reflexivity|]. destruct (wf_parent _ _ W (S i) n H) as (p & m & _ & _ & _ & X & _); lia. Qed.

  Lemma step_ok D s : inv s -> wp E (hgs_step s D) (fun s' => inv s' /\ some_alive s' /\ exists s1 s2 s3, stages D s s1 s2 s3 s').
  Proof.
    intros I. destruct I as [W B Ce Mp Ro Co]. unfold HgsModel.hgs_step.
    eapply wp_bind; [apply wp_and_eq; apply (run_metaepoch_ok drv draw dstep dcost dfinal ddelegates hv_of C E good ready goodv Hstep Hfinal) with (top := max_level C); [destruct Hcfg as [X|X]; [now left | right; lia] | exact Hready | exact W | exact B]|].
    intros s1 (R1 & Pw1 & Co1). assert (P1 := Pw1). destruct P1 as (Le1 & Ln1 & Mp1 & P1).
    assert (W1 : wf s1).
    { apply (pointwise_wf drv metaepoch_of (fun _ => True) (max_level C) s s1); auto. intros n n' M. destruct (metaepoch_same _ _ _ _ _ _ _ _ _ _ _ _ M) as (X & Y & _). auto. }
    assert (Back : forall (sa sb : hgs), length (nodes sb) = length (nodes sa) -> forall i nb, node_at sb i nb -> exists na, node_at sa i na).
    { intros sa sb L i nb H. destruct (nth_error (nodes sa) i) as [na|] eqn:X; [exists na; exact X|]. apply nth_error_None in X. unfold node_at in H. assert (i < length (nodes sb)) by (apply nth_error_Some; congruence). lia. }
    assert (M1 : forall i n n1, node_at s i n -> node_at s1 i n1 -> metaepoch_of n n1).
    { intros i n n1 H H1. destruct (P1 i n H) as (x & Hx & T & _). assert (x = n1) by (unfold node_at in *; congruence). subst. auto. }
    assert (Mid : forall i n1, node_at s1 i n1 -> base n1 /\ (alive n1 = true \/ center n1 = mean (population n1))).
    { intros i n1 H1. destruct (Back s s1 Le1 i n1 H1) as (n & Hn). destruct (M1 i n n1 Hn H1) as (Bn & M). split; [exact Bn|]. destruct (alive n) eqn:A.
      - left. destruct M as (len & _ & M). destruct (am_same _ _ _ _ _ _ _ _ M) as (X & _). congruence.
      - subst n1. right. destruct (Ce i n Hn) as [X|(_ & X & _)]; [exact X | congruence]. }
    assert (Mp1' : E \/ 3 <= length (min_progress_ratio s1)) by (rewrite Mp1; exact Mp).
    assert (Hmd : E \/ 3 <= length (min_dists C)) by (destruct Hcfg as [X|X]; [now left | right; lia]).
    eapply wp_bind; [apply wp_and_eq; apply (trim_sprouts_ok drv EPSILON C E good goodv Hmd (max_level C) s1 W1 Mid Mp1')|].
    intros s2 (R2 & Pw2 & Co2 & Rule). assert (P2 := Pw2). destruct P2 as (Le2 & Ln2 & Mp2 & P2).
    assert (T2 : forall i n1 n2, node_at s1 i n1 -> node_at s2 i n2 -> trimmed (min_progress_ratio s1) n1 n2).
    { intros i n1 n2 H H1. destruct (P2 i n1 H) as (x & Hx & T & _). assert (x = n2) by (unfold node_at in *; congruence). subst. auto. }
    assert (W2 : wf s2).
    { apply (pointwise_wf drv (trimmed (min_progress_ratio s1)) (fun _ => True) (max_level C) s1 s2); auto. intros n n' M. destruct (trimmed_same drv EPSILON _ _ _ M) as (X & Y & _). auto. }
    assert (Cen2 : forall i n, node_at s2 i n -> base n /\ center n = mean (population n)).
    { intros i n2 H2. destruct (Back s1 s2 Le2 i n2 H2) as (n1 & H1). destruct (Mid i n1 H1) as (Bn & Cn). assert (T := T2 i n1 n2 H1 H2). split; [exact (trimmed_base drv EPSILON good goodv _ _ _ Bn T) | exact (trimmed_center drv EPSILON _ _ _ Cn T)]. }
    assert (X2 : explored drv s2) by (intros i n H; right; destruct (Cen2 i n H) as (_ & ->); apply mean_present).
    destruct (wf_root _ _ W2) as (r2 & Hr2 & Lr2).
    eapply wp_bind.
    { apply wp_and_eq. eapply (release_ok drv draw dnew raw C E good goodv) with (n := r2) (s0 := s2); try assumption.
      - intros lv d pop N G. apply Hnew; auto.
      - destruct Hcfg as [X|X]; [now left | right; lia].
      - intros i n H. destruct (Cen2 i n H) as (Bn & _). destruct Bn; assumption.
      - lia.
      - apply (grown_refl drv C E good). destruct Hcfg as [X|X]; [now left | right; lia].
      - auto. }
    intros s3 (R3 & W3 & G3 & K3 & D3). destruct (g_rest _ _ _ _ G3) as (Co3 & Mp3).
    assert (Mp3' : E \/ 3 <= length (min_progress_ratio s3)) by (rewrite Mp3, Mp2; exact Mp1').
    eapply wp_weaken; [apply wp_and_eq; apply (revive_ok s3 Mp3')|]. intros s' (R4 & Rev).
    assert (Root3 : forall n, node_at s3 0 n -> alive n = true \/ ripe n = true).
    { intros n3 H3. destruct (g_old _ _ _ _ G3 0 r2 Hr2) as (ks & Hk). assert (n3 = with_sprouts r2 (sprouts r2 ++ ks)) by (unfold node_at in *; congruence). subst n3. cbn.
      destruct (Back s1 s2 Le2 0 r2 Hr2) as (r1 & Hr1). destruct (Back s s1 Le1 0 r1 Hr1) as (r0 & Hr0). assert (T := T2 0 r1 r2 Hr1 Hr2).
      destruct (metaepoch_same _ _ _ _ _ _ _ _ _ _ _ _ (M1 0 r0 r1 Hr0 Hr1)) as (_ & _ & Al & Ri & _).
      destruct (alive r1) eqn:A1.
      - assert (Lr1 : level r1 = 0) by (rewrite <- (proj1 (trimmed_same drv EPSILON _ _ _ T)); exact Lr2).
        destruct (Rule 0 0 r1 r2 Hr1 Lr1 A1 Hr2) as (_ & Surv).  unfold HgsTrimProofs.trimmed in T. rewrite A1 in T. destruct T as (_ & _ & Rip).
        destruct (ripe r2) eqn:R; [now right|]. left. apply Surv. split; [intros St; apply Rip in St; discriminate|].
        intros (j & m0 & m & md & Hm0 & Lm & Hm & Hx & _). rewrite Lr2 in Lm. assert (Wz : nth_error (level_nodes s1) 0 <> None) by (intros Z; apply nth_error_None in Z; rewrite (wf_three _ _ W1) in Z; lia).
        destruct (nth_error (level_nodes s1) 0) as [ids|] eqn:Ids; [|congruence]. assert (j = 0) by (eapply (root_ids s1 ids W1 Ids); eassumption). subst j. destruct Hx as [Hx|(_ & Hx)]; [|lia]. assert (m = r2) by (unfold node_at in *; congruence). congruence.
      - unfold HgsTrimProofs.trimmed in T. rewrite A1 in T. subst r2. rewrite Ri. rewrite A1. destruct (Ro r0 Hr0) as [X|X]; [congruence | now right]. }
    assert (L3 : length (nodes s') = length (nodes s3)) by (destruct Rev as [(_ & ->)|(_ & Hn & _)]; [reflexivity | rewrite Hn; apply map_length]).
    assert (B3 : forall i n, node_at s3 i n -> base n /\ (center n = mean (population n) \/ (population n = [] /\ alive n = true /\ center n = Missing))).
    { intros i n3 H3. destruct (Nat.lt_ge_cases i (length (nodes s2))) as [L|L].
      - destruct (nth_error (nodes s2) i) as [n2|] eqn:X; [|apply nth_error_None in X; lia]. destruct (g_old _ _ _ _ G3 i n2 X) as (ks & Hk). assert (n3 = with_sprouts n2 (sprouts n2 ++ ks)) by (unfold node_at in *; congruence). subst n3.
        destruct (Cen2 i n2 X) as (Bn & Cn). split; [|left; exact Cn]. destruct Bn. constructor; cbn; assumption.
      - destruct (g_new _ _ _ _ G3 i n3 H3 L) as (F & Gd). destruct F as (F1 & F2 & F3 & F4 & F5 & F6 & F7 & F8 & F9 & F10 & F11). split; [|right; auto]. constructor; rewrite ?F1, ?F2, ?F5, ?F7, ?F9, ?F10, ?F11; auto; discriminate. }
    assert (Sa : some_alive s').
    { destruct Rev as [(X & ->)|(Nx & Hn & _)]; [exact X|]. destruct (wf_root _ _ W3) as (r3 & Hr3 & _). destruct (Root3 r3 Hr3) as [A|A]; [exfalso; apply Nx; exists 0, r3; auto|].
      exists 0, (with_flags drv r3 true false). split; [|reflexivity]. unfold node_at. rewrite Hn, nth_error_map. unfold node_at in Hr3. rewrite Hr3. cbn. now rewrite A. }
    split; [|split; [exact Sa|]].
    2:{ exists s1, s2, s3. constructor; auto. }
    constructor.
    - destruct Rev as [(_ & ->)|(_ & Hn & Hl & _)]; [exact W3|].
      set (sx := {| nodes := nodes s'; level_nodes := level_nodes s'; hcost := hcost s'; min_progress_ratio := min_progress_ratio s3 |}).
      assert (Wx : wf sx).
      { apply (pointwise_wf drv (fun n n' => n' = n \/ n' = with_flags drv n true false) (fun _ => True) (max_level C) s3 sx); auto.
        - intros n n' [->| ->]; auto.
        - split; [exact L3|]. split; [exact Hl|]. split; [reflexivity|]. intros i n H. unfold node_at. cbn. rewrite Hn, nth_error_map. unfold node_at in H. rewrite H. cbn.
          destruct (ripe n); eexists; (split; [reflexivity|]); (split; [auto | tauto]). }
      destruct Wx as [Wa Wb Wc Wd We Wf]. constructor; assumption.
    - intros i n' H'. destruct (revived_back s3 s' i n' Rev H') as (n & Hn & [->|(Rn & ->)]); [now apply (B3 i n)|]. destruct (B3 i n Hn) as (Bn & _). destruct Bn. constructor; cbn; auto; discriminate.
    - intros i n' H'. destruct (revived_back s3 s' i n' Rev H') as (n & Hn & [->|(Rn & ->)]); [now apply (B3 i n)|]. destruct (B3 i n Hn) as (Bn & [X|(Y1 & Y2 & Y3)]); [left; exact X|]. right. cbn. auto.
    - destruct Rev as [(_ & ->)|(_ & _ & _ & _ & Hm)]; [exact Mp3'|]. destruct (min_progress_ratio s3) as [|a [|b [|c r]]]; cbn in Hm; try discriminate. injection Hm as <-. right. cbn. lia.
    - intros n' H'. destruct (revived_back s3 s' 0 n' Rev H') as (n & Hn & [->|(Rn & ->)]); [now apply Root3 | left; reflexivity].
    - assert (Ht : (total (nodes s') == total (nodes s3))%Q).
      { destruct Rev as [(_ & ->)|(_ & Hn & _)]; [reflexivity|]. apply total_pointwise; [lia|]. intros i n H. rewrite Hn, nth_error_map, H. cbn. destruct (ripe n); eexists; split; try reflexivity; auto. }
      assert (Hh : hcost s' = hcost s3) by (destruct Rev as [(_ & ->)|(_ & _ & _ & X & _)]; auto).
      assert (Ht2 : (total (nodes s2) == total (nodes s1))%Q).
      { apply total_pointwise; [lia|]. intros i n1 H1. destruct (P2 i n1 H1) as (n2 & H2 & T & _). exists n2. split; [exact H2|]. destruct (trimmed_same drv EPSILON _ _ _ (T I)) as (X & _ & Y & _). auto. }
      rewrite Hh, Co3, Co2, Ht, (grown_total s2 s3 G3), Ht2. lra.
  Qed.

  Lemma init_ok sampling d mpr pop : Forall goodv pop -> E \/ (3 <= length mpr /\ forall size, nth_error (population_sizes C) 0 = Some size -> 1 <= size <= length pop) ->
    wp E (hgs_init sampling d mpr pop) (fun s => inv s /\ some_alive s /\
      exists root size picked rest, nodes s = [root] /\ brand_new 0 root /\ nth_error (population_sizes C) 0 = Some size /\ length picked = size /\ Permutation pop (picked ++ rest) /\ dnew 0 d picked = Some (driver root) /\ min_progress_ratio s = mpr).
  Proof.
    intros G H. unfold HgsModel.hgs_init. eapply wp_bind; [apply wp_get; destruct Hcfg as [X|X]; [now left | right; lia]|]. intros size Hs.
    eapply wp_bind; [apply (sample_ok E); destruct H as [H|(_ & H)]; [now left | right; now apply H]|]. intros picked (Lp & rest & Pe).
    assert (Gp : Forall goodv picked) by (pose proof (Permutation_Forall Pe G) as X; now apply Forall_app in X).
    eapply wp_bind with (P := fun n => brand_new 0 n /\ good (driver n) /\ dnew 0 d picked = Some (driver n)).
    { unfold new_node. assert (Np : E \/ exists size, nth_error (population_sizes C) 0 = Some size /\ length picked = Nat.max 1 size) by (destruct H as [H|(_ & H)]; [now left | right; exists size; split; [exact Hs | specialize (H size Hs); lia]]). pose proof (Hnew 0 d picked Np Gp) as Hd. destruct (dnew 0 d picked) as [dr|]; [|exact Hd]. cbn [of_option bind]. cbn in Hd.
      eapply wp_bind; [apply wp_get; destruct Hcfg as [X|X]; [now left | right; lia]|]. intros len _. cbn. unfold brand_new. cbn. repeat split; auto. }
    intros root (Bn & Gr & Dn). cbn [wp]. assert (Bn' := Bn). destruct Bn' as (F1 & F2 & F3 & F4 & F5 & F6 & F7 & F8 & F9 & F10 & F11).
    assert (At0 : forall i n, @node_at drv {| nodes := [root]; level_nodes := [[0]; []; []]; hcost := 0; min_progress_ratio := mpr |} i n <-> i = 0 /\ n = root).
    { intros [|i] n; unfold node_at; cbn; [split; [intros X; injection X as ->; auto | intros (_ & ->); auto]|]. split; [destruct i; discriminate | intros (X & _); discriminate]. }
    split; [|split].
    - constructor.
      + constructor.
        * exists root. split; [now apply At0 | exact F3].
        * reflexivity.
        * intros l ids Hl. destruct l as [|[|[|l]]]; cbn in Hl; try (injection Hl as <-).
          -- split; [repeat constructor|]. intros i. split.
             ++ intros [<-|[]]. exists root. split; [now apply At0 | exact F3].
             ++ intros (n & Hn & _). apply At0 in Hn. destruct Hn as (-> & _). now left.
          -- split; [constructor|]. intros i. split; [intros [] | intros (n & Hn & L)]. apply At0 in Hn. destruct Hn as (_ & ->). lia.
          -- split; [constructor|]. intros i. split; [intros [] | intros (n & Hn & L)]. apply At0 in Hn. destruct Hn as (_ & ->). lia.
          -- destruct l; discriminate.
        * intros i n Hn. apply At0 in Hn. destruct Hn as (_ & ->). lia.
        * intros i n Hn Pos. apply At0 in Hn. lia.
        * intros p m Hm. apply At0 in Hm. destruct Hm as (_ & ->). rewrite F6. split; [constructor | intros k []].
      + intros i n Hn. apply At0 in Hn. destruct Hn as (_ & ->). constructor; rewrite ?F1, ?F2, ?F5, ?F7, ?F9, ?F10, ?F11; auto; discriminate.
      + intros i n Hn. apply At0 in Hn. destruct Hn as (_ & ->). right. auto.
      + cbn. destruct H as [H|(H & _)]; auto.
      + intros n Hn. apply At0 in Hn. destruct Hn as (_ & ->). auto.
      + cbn [hcost nodes]. unfold HgsProofs.total. cbn [fold_right]. unfold spent. rewrite F4. ring.
    - exists 0, root. split; [now apply At0 | exact F1].
    - exists root, size, picked, rest. repeat split; auto.
  Qed.

  Lemma run_ok Ds : forall s, inv s -> wp E (hgs_run Ds s) (fun s' => inv s').
  Proof.
    induction Ds as [|D Ds IH]; intros s I; [exact I|]. unfold HgsModel.hgs_run. cbn [fold_ok]. eapply wp_bind; [apply (step_ok D s I)|]. intros s' (I' & _). apply IH. exact I'.
  Qed.
End Runs.
Arguments st_run {drv draw dnew dstep dcost dfinal ddelegates hv_of raw EPSILON C good goodv D s s1 s2 s3 s'}.
Arguments st_rule {drv draw dnew dstep dcost dfinal ddelegates hv_of raw EPSILON C good goodv D s s1 s2 s3 s'}.
Arguments st_wf {drv draw dnew dstep dcost dfinal ddelegates hv_of raw EPSILON C good goodv D s s1 s2 s3 s'}.
Arguments st_center {drv draw dnew dstep dcost dfinal ddelegates hv_of raw EPSILON C good goodv D s s1 s2 s3 s'}.
Arguments st_grown {drv draw dnew dstep dcost dfinal ddelegates hv_of raw EPSILON C good goodv D s s1 s2 s3 s'}.
Arguments st_kept {drv draw dnew dstep dcost dfinal ddelegates hv_of raw EPSILON C good goodv D s s1 s2 s3 s'}.
Arguments st_done {drv draw dnew dstep dcost dfinal ddelegates hv_of raw EPSILON C good goodv D s s1 s2 s3 s'}.
Arguments st_revived {drv draw dnew dstep dcost dfinal ddelegates hv_of raw EPSILON C good goodv D s s1 s2 s3 s'}.
Arguments st_meta {drv draw dnew dstep dcost dfinal ddelegates hv_of raw EPSILON C good goodv D s s1 s2 s3 s'}.
Arguments st_trim {drv draw dnew dstep dcost dfinal ddelegates hv_of raw EPSILON C good goodv D s s1 s2 s3 s'}.
