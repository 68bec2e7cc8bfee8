(** Proofs for HGS over its drivers. *)
From Coq Require Import QArith Reals.
From Verif Require Import Spec Base DomModel DomProofs VarModel VarProofs NDSortModel NDSortProofs NsgaModel NsgaProofs HgsModel HgsSpec HgsProofs HgsRunProofs HgsFacts HgsNsgaModel HgsTotal
  HgsDriversModel HgsDriversSpec.
Local Open Scope nat_scope.

Section Generic.
  Context {A draw drv : Type}.
  Variable N : node_driver A draw drv.
  Variable args : nat -> A.
  Variable b : box.
  Variable least : nat.
  Variables good ready : A -> drv -> Prop.

  (** A driver's part of the contract, at one level's arguments. *)
  Record node_contract (a : A) : Prop := {
    nc_new : forall x pop, 1 <= length pop -> least <= length pop -> Forall (in_box b) pop -> exists d, n_new N a x pop = Some d /\ good a d;
    nc_step : forall x d, good a d -> exists d', n_step N a x d = Some d' /\ good a d' /\ ready a d';
    nc_final : forall x d, good a d -> ready a d -> exists d' pop dels, n_final N a x d = Some (d', pop) /\ good a d' /\
      Forall (in_box b) pop /\ n_delegates N a d' = Some dels /\ Forall (in_box b) dels
  }.
  Hypothesis Contract : forall lv, node_contract (args lv).

  Lemma levels_contract : driver_contract (at_new N args) (at_step N args) (at_final N args) (at_delegates N args) b least
    (fun d => good (args (fst d)) (snd d)) (fun d => ready (args (fst d)) (snd d)).
  Proof.
    constructor.
    - intros lv x pop H1 H2 H3. destruct (nc_new _ (Contract lv) x pop H1 H2 H3) as (d & E & G). exists (lv, d). unfold at_new. rewrite E. auto.
    - intros x (lv & d) G. cbn [fst snd] in G. destruct (nc_step _ (Contract lv) x d G) as (d' & E & G' & R). exists (lv, d'). unfold at_step. cbn [fst snd]. rewrite E. auto.
    - intros x (lv & d) G R. cbn [fst snd] in G, R. destruct (nc_final _ (Contract lv) x d G R) as (d' & pop & dels & E & G' & Fp & Ed & Fd).
      exists (lv, d'), pop, dels. unfold at_final, at_delegates. cbn [fst snd]. rewrite E. auto.
  Qed.

  Lemma in_bounds C (s : hgs (nat * drv)) : (forall i n, node_at s i n -> Forall (in_box (dims C)) (population n) /\ Forall (in_box (dims C)) (delegates n)) ->
    dims C = b -> within_bounds b s.
  Proof.
    intros F <-. split; [|exact F]. rewrite merged. apply Forall_concat, Forall_map, Forall_forall. intros n Hn. apply In_nth_error in Hn.
    destruct Hn as (i & Hi). apply (F i n Hi).
  Qed.

  Lemma safe (needs : config -> Prop) : (forall C, needs C -> big_enough least C) ->
    (forall C, needs C -> (forall lv d, good (args lv) d -> ready (args lv) d) \/ makes_steps C) -> safe_in_hgs N args b needs.
  Proof.
    intros H1 H2 hv_of raw EPSILON C sampling x mpr pop Ds (Cf & Ed & Lm & Fp & Hs) Hn.
    pose proof levels_contract as K. rewrite <- Ed in K, Fp.
    destruct (total_run _ _ _ _ (at_cost N) _ _ hv_of raw EPSILON C _ _ _ K Cf (H1 C Hn)) with (sampling := sampling) (d := x) (mpr := mpr) (pop := pop) (Ds := Ds) as (s0 & s & E0 & E & F); auto.
    { destruct (H2 C Hn) as [X|X]; [left | now right]. intros (lv & d) G. apply X. exact G. }
    exists s0, s. split; [exact E0|]. split; [exact E|]. apply (in_bounds C); [|exact Ed]. intros i n Hi. apply (F i n Hi).
  Qed.

  (** The same when the driver may raise or hang. *)
  Record node_partial (a : A) : Prop := {
    np_new : forall x pop d, Forall (in_box b) pop -> n_new N a x pop = Some d -> good a d;
    np_step : forall x d d', good a d -> n_step N a x d = Some d' -> good a d';
    np_final : forall x d d' pop, good a d -> n_final N a x d = Some (d', pop) -> good a d' /\ Forall (in_box b) pop /\
      forall dels, n_delegates N a d' = Some dels -> Forall (in_box b) dels
  }.
  Hypothesis Partial : forall lv, node_partial (args lv).
  Lemma sound_runs (needs : config -> Prop) : sound_in_hgs N args b needs.
  Proof.
    intros hv_of raw EPSILON C sampling x mpr pop Ds s0 s (Cf & Ed & Lm & Fp & Hs) _ E0 E. destruct Cf as (Vb & _). rewrite Ed in *.
    set (good' := fun d : nat * drv => good (args (fst d)) (snd d)).
    assert (Hnew : forall lv y p, (True \/ exists size, nth_error (population_sizes C) lv = Some size /\ length p = Nat.max 1 size) -> Forall (in_box b) p -> wp True (of_option (at_new N args lv y p)) good').
    { intros lv y p _ F. unfold at_new. destruct (n_new N (args lv) y p) as [d|] eqn:En; [|exact Logic.I]. cbn. eapply np_new; eauto. }
    assert (Hmut : forall sel rnd rate v, in_box b v -> wp True (of_option (mutate raw sel rnd rate v (dims C))) (in_box b)).
    { intros sel rnd rate v H. rewrite Ed. destruct (mutate_in_box raw sel rnd rate v b Vb H) as (y & -> & G). exact G. }
    assert (Hstep : forall y d, good' d -> wp True (of_option (at_step N args y d)) (fun z => good' z /\ True)).
    { intros y (lv & d) G. unfold at_step. cbn [fst snd]. destruct (n_step N (args lv) y d) as [d'|] eqn:En; [|exact Logic.I]. cbn. split; [|exact Logic.I]. eapply np_step; eauto. }
    assert (Hfin : forall y d, good' d -> True -> wp True (of_option (at_final N args y d)) (fun r => good' (fst r) /\ Forall (in_box b) (snd r) /\ wp True (of_option (at_delegates N args (fst r))) (Forall (in_box b)))).
    { intros y (lv & d) G _. unfold at_final. cbn [fst snd]. destruct (n_final N (args lv) y d) as [(d' & p)|] eqn:En; [|exact Logic.I]. cbn.
      destruct (np_final _ (Partial lv) y d d' p G En) as (G' & Fp' & Fd). split; [exact G'|]. split; [exact Fp'|]. unfold at_delegates. cbn [fst snd].
      destruct (n_delegates N (args lv) d') as [dels|] eqn:Edl; [|exact Logic.I]. cbn. auto. }
    pose proof (init_ok _ _ (at_new N args) C True good' (in_box b) Hnew (or_introl Logic.I) sampling x mpr pop Fp (or_introl Logic.I)) as W.
    unfold start_hgs in E0. rewrite E0 in W. destruct W as (I0 & _).
    pose proof (run_ok _ _ (at_new N args) (at_step N args) (at_cost N) (at_final N args) (at_delegates N args) hv_of raw EPSILON C True good' (fun _ => True) (in_box b)
       Hnew Hmut Hstep Hfin (or_introl Logic.I) (or_introl (fun _ _ => Logic.I)) Ds s0 I0) as W.
    unfold run_hgs in E. rewrite E in W. apply (in_bounds C); [|exact Ed]. rewrite Ed. intros i n Hi. destruct (i_base _ _ _ _ _ _ W i n Hi). auto.
  Qed.
End Generic.

(** What a node holds comes from its driver. *)
Section Source.
  Context {drv draw : Type}.
  Variable dnew : nat -> draw -> list vec -> option drv.
  Variable dstep : draw -> drv -> option drv.
  Variable dcost : drv -> Z.
  Variable dfinal : draw -> drv -> option (drv * list vec).
  Variable ddelegates : drv -> option (list vec).
  Variable hv_of : list vec -> Q.
  Variable raw : Z -> Z -> Z -> Z -> Z.
  Variable EPSILON : Q.
  Variable C : config.

  Variable good : drv -> Prop.
  Hypothesis Good_step : forall x d d', good d -> dstep x d = Some d' -> good d'.

  Definition sourced (n : node drv) : Prop :=
    (population n = [] /\ delegates n = []) \/
    exists d0 fd dels, good d0 /\ dfinal fd d0 = Some (driver n, population n) /\ ddelegates (driver n) = Some dels /\ Permutation dels (delegates n).

  Lemma good_iterate ds : forall d d', good d -> iterate dstep ds d = Some d' -> good d'.
  Proof.
    induction ds as [|x ds IH]; cbn [iterate]; intros d d' G E; [injection E as <-; exact G|].
    destruct (dstep x d) as [d1|] eqn:E1; [|discriminate]. eapply IH; [eapply Good_step; eauto | exact E].
  Qed.

  Lemma sourced_step s D s' : reachable dnew dstep dcost dfinal ddelegates hv_of raw EPSILON C s ->
    hgs_step drv draw dnew dstep dcost dfinal ddelegates hv_of raw EPSILON C s D = Ok s' ->
    (forall i n, node_at s i n -> good (driver n)) ->
    (forall i n, node_at s i n -> sourced n) -> forall i n, node_at s' i n -> sourced n.
  Proof.
    intros R H Gd F i n' Hi. destruct (Nat.lt_ge_cases i (length (nodes s))) as [L|L].
    - destruct (nth_error (nodes s) i) as [n|] eqn:En; [|apply nth_error_None in En; lia].
      pose proof (work _ _ _ _ _ _ _ _ _ _ _ s D s' R H i n n' En Hi) as W. destruct (alive n).
      + destruct W as (len & n1 & _ & M & (Dr & Po & _ & De & _)). destruct (am_run _ _ _ _ _ _ _ _ M) as (ds & d & fd & dels & _ & It & Ef & _ & Ed & Pe).
        right. exists d, fd, dels. rewrite Dr, Po, De. split; [eapply good_iterate; [apply (Gd i n En) | exact It] | auto].
      + destruct W as (Dr & Po & _ & De & _). destruct (F i n En) as [(P1 & P2)|(d & fd & dels & E0 & E1 & E2 & E3)]; [left; split; congruence|].
        right. exists d, fd, dels. rewrite Dr, Po, De. auto.
    - destruct (newcomers _ _ _ _ _ _ _ _ _ _ _ s D s' R H i n' Hi L) as (p & m & dg & _ & _ & _ & _ & _ & (n & dr & mu & sz & rt & Hn & B & _) & _).
      unfold node_at in Hi, Hn. rewrite Hi in Hn. injection Hn as <-. destruct B as (_ & _ & _ & _ & P1 & _ & P2 & _). left. auto.
  Qed.

  Lemma sourced_run sampling x mpr pop s0 : hgs_init drv draw dnew C sampling x mpr pop = Ok s0 ->
    (forall Ds s, hgs_run drv draw dnew dstep dcost dfinal ddelegates hv_of raw EPSILON C Ds s0 = Ok s -> forall i n, node_at s i n -> good (driver n)) ->
    forall Ds s, hgs_run drv draw dnew dstep dcost dfinal ddelegates hv_of raw EPSILON C Ds s0 = Ok s -> forall i n, node_at s i n -> sourced n.
  Proof.
    intros E0 Gd. set (run := hgs_run drv draw dnew dstep dcost dfinal ddelegates hv_of raw EPSILON C) in *.
    assert (Rapp : forall Ds t D, run (Ds ++ [D]) t = bind (run Ds t) (fun u => hgs_step drv draw dnew dstep dcost dfinal ddelegates hv_of raw EPSILON C u D)).
    { unfold run, hgs_run. induction Ds as [|D' Ds IH]; intros t D; cbn [app fold_ok].
      - cbn. destruct (hgs_step _ _ _ _ _ _ _ _ _ _ _ t D); reflexivity.
      - destruct (hgs_step _ _ _ _ _ _ _ _ _ _ _ t D') as [u| |]; cbn [bind]; [apply IH | reflexivity | reflexivity]. }
    intros Ds. induction Ds as [|D Ds IH] using rev_ind; intros s E.
    - injection E as <-. intros i n Hi. unfold hgs_init in E0. destruct (get _ 0) as [size| |]; cbn [bind] in E0; try discriminate. destruct (sample _ _ _) as [ch| |]; cbn [bind] in E0; try discriminate.
      unfold new_node in E0. destruct (of_option _) as [dr| |]; cbn [bind] in E0; try discriminate. destruct (get _ 0) as [ml| |]; cbn [bind] in E0; try discriminate.
      injection E0 as <-. unfold node_at in Hi. cbn [nodes] in Hi. destruct i as [|[|i]]; cbn in Hi; try discriminate. injection Hi as <-. left. auto.
    - rewrite Rapp in E. destruct (run Ds s0) as [t| |] eqn:Et; cbn [bind] in E; try discriminate.
      apply (sourced_step t D s); [exists sampling, x, mpr, pop, Ds, s0; split; [exact E0 | exact Et] | exact E | apply (Gd Ds t Et) | apply (IH t eq_refl)].
  Qed.
End Source.

(** A property of what a good driver hands out holds of every node. *)
Lemma always {A draw drv} (N : node_driver A draw drv) (args : nat -> A) b least good ready (needs : config -> Prop) (about : list vec -> list vec -> Prop) :
  (forall lv, node_contract N b least good ready (args lv)) ->
  (forall C, needs C -> big_enough least C) ->
  (forall C, needs C -> (forall lv d, good (args lv) d -> ready (args lv) d) \/ makes_steps C) ->
  about [] [] -> (forall l d d', about l d -> Permutation d d' -> about l d') ->
  (forall lv x d d' pop dels, good (args lv) d -> n_final N (args lv) x d = Some (d', pop) -> n_delegates N (args lv) d' = Some dels -> about pop dels) ->
  always_in_hgs N args b needs about.
Proof.
  intros K H1 H2 A0 Ap Af hv_of raw EPSILON C sampling x mpr pop Ds s0 s (Cf & Ed & Lm & Fp & Hs) Hn E0 E i n Hi.
  pose proof (levels_contract N args b least good ready K) as L. rewrite <- Ed in L, Fp.
  set (good' := fun d : nat * drv => good (args (fst d)) (snd d)) in *.
  assert (Gd : forall Ds s, run_hgs N args hv_of raw EPSILON C Ds s0 = Ok s -> forall i n, node_at s i n -> good' (driver n)).
  { intros Ds1 s1 E1 i1 n1 Hi1.
    destruct (total_run _ _ _ _ (at_cost N) _ _ hv_of raw EPSILON C _ _ _ L Cf (H1 C Hn)) with (sampling := sampling) (d := x) (mpr := mpr) (pop := pop) (Ds := Ds1) as (t0 & t & F0 & F1 & F); auto.
    { destruct (H2 C Hn) as [X|X]; [left | now right]. intros (lv & d) G. apply X. exact G. }
    unfold start_hgs in E0. rewrite E0 in F0. injection F0 as <-. unfold run_hgs in E1. rewrite E1 in F1. injection F1 as <-. apply (F i1 n1 Hi1). }
  assert (Gs : forall y d d', good' d -> at_step N args y d = Some d' -> good' d').
  { intros y d d' G Es. destruct (dc_step _ _ _ _ _ _ _ _ L y d G) as (d1 & Es1 & G1 & _). rewrite Es in Es1. injection Es1 as <-. exact G1. }
  destruct (sourced_run _ _ _ _ _ _ _ _ _ good' Gs sampling x mpr pop s0 E0 Gd Ds s E i n Hi) as [(-> & ->)|(d0 & fd & dels & G0 & Ef & Edl & Pe)]; [exact A0|].
  apply (Ap _ dels); [|exact Pe]. unfold at_final in Ef. destruct (n_final N (args (fst d0)) fd (snd d0)) as [(d1 & p1)|] eqn:Ef1; [|discriminate].
  injection Ef as Ed1 Ep1. rewrite <- Ed1 in Edl. unfold at_delegates in Edl. cbn [fst snd] in Edl. rewrite <- Ep1. eapply Af; eauto.
Qed.
