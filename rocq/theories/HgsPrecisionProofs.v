(** Proofs for the precision of HGS's levels. *)
From Coq Require Import QArith Reals.
From Verif Require Import Spec Base DomModel DomProofs VarModel VarProofs NDSortModel NDSortProofs NsgaModel NsgaProofs NslsSpec NslsModel Nsga3Spec Nsga3Model
  SpeaSpec SpeaModel IbeaModel IbeaProofs SmsSpec SmsModel SmsProofs OmopsoSpec OmopsoModel JgblSpec JgblModel MetModel
  HgsModel HgsSpec HgsProofs HgsRunProofs HgsFacts HgsNsgaModel HgsTotal
  HgsDriversModel HgsDriversSpec HgsDriversProofs HgsDriversContracts TrimRunModel TrimRunSpec TrimRunProofs HgsPrecisionSpec.
Local Open Scope nat_scope.

(** What a node holds comes from a driver made and kept for its level. *)
Section Levels.
  Context {A draw drv : Type}.
  Variable N : node_driver A draw drv.
  Variable args : nat -> A.
  Variable fit : nat -> drv -> Prop.
  Variable about : nat -> list vec -> list vec -> Prop.
  Hypothesis About_nil : forall lv, about lv [] [].
  Hypothesis About_perm : forall lv l d d', about lv l d -> Permutation d d' -> about lv l d'.
  Hypothesis Fit_new : forall lv x pop d, n_new N (args lv) x pop = Some d -> fit lv d.
  Hypothesis Fit_step : forall lv x d d', fit lv d -> n_step N (args lv) x d = Some d' -> fit lv d'.
  Hypothesis Fit_final : forall lv x d d' pop, fit lv d -> n_final N (args lv) x d = Some (d', pop) -> fit lv d' /\
    forall dels, n_delegates N (args lv) d' = Some dels -> about lv pop dels.
  Variable hv_of : list vec -> Q.
  Variable raw : Z -> Z -> Z -> Z -> Z.
  Variable EPSILON : Q.
  Variable C : config.

  Definition held (n : node (nat * drv)) : Prop :=
    fst (driver n) = level n /\ fit (level n) (snd (driver n)) /\ about (level n) (population n) (delegates n).
  Let reach := reachable (at_new N args) (at_step N args) (at_cost N) (at_final N args) (at_delegates N args) hv_of raw EPSILON C.
  Let step := hgs_step (nat * drv) draw (at_new N args) (at_step N args) (at_cost N) (at_final N args) (at_delegates N args) hv_of raw EPSILON C.

  Lemma fit_iterate lv ds : forall d d', fst d = lv /\ fit lv (snd d) -> iterate (at_step N args) ds d = Some d' -> fst d' = lv /\ fit lv (snd d').
  Proof.
    induction ds as [|x ds IH]; cbn [iterate]; intros d d' G E; [injection E as <-; exact G|].
    destruct (at_step N args x d) as [d1|] eqn:E1; [|discriminate]. apply (IH d1); [|exact E].
    unfold at_step in E1. destruct G as (<- & G). destruct (n_step _ _ x (snd d)) as [d2|] eqn:E2; [|discriminate]. injection E1 as <-. cbn. split; [reflexivity | eauto].
  Qed.

  Lemma fit_born lv x pop d : at_new N args lv x pop = Some d -> fst d = lv /\ fit lv (snd d).
  Proof. unfold at_new. destruct (n_new _ _ _ _) as [d'|] eqn:E; [|discriminate]. intros X. injection X as <-. cbn. eauto. Qed.

  Lemma held_step s D s' : reach s -> step s D = Ok s' -> (forall i n, node_at s i n -> held n) -> forall i n, node_at s' i n -> held n.
  Proof.
    intros R H F i n' Hi. destruct (Nat.lt_ge_cases i (length (nodes s))) as [L|L].
    - destruct (nth_error (nodes s) i) as [n|] eqn:En; [|apply nth_error_None in En; lia].
      destruct (persist _ _ _ _ _ _ _ _ _ _ _ s D s' R H i n En) as (n2 & ks & Hn2 & Lv & _).
      assert (n2 = n') by (unfold node_at in *; congruence). subst n2. clear Hn2.
      pose proof (work _ _ _ _ _ _ _ _ _ _ _ s D s' R H i n n' En Hi) as W. destruct (F i n En) as (F1 & F2 & F3). destruct (alive n).
      + destruct W as (len & n1 & _ & M & (Dr & Po & _ & De & _)). destruct (am_run _ _ _ _ _ _ _ _ M) as (ds & d & fd & dels & _ & It & Ef & _ & Ed & Pe).
        apply (fit_iterate (level n)) in It; [|split; assumption]. destruct It as (G1 & G2). unfold at_final in Ef. rewrite G1 in Ef.
        destruct (n_final _ _ fd (snd d)) as [(d' & p)|] eqn:Efn; [|discriminate]. injection Ef as E1 E2. destruct (Fit_final _ _ _ _ _ G2 Efn) as (G3 & G4).
        unfold at_delegates in Ed. rewrite <- E1 in Ed. cbn [fst snd] in Ed. specialize (G4 dels Ed). unfold held. rewrite Dr, Po, De, Lv, <- E1, <- E2. cbn. split; [reflexivity|]. split; [exact G3 | eauto].
      + destruct W as (Dr & Po & _ & De & _). unfold held. rewrite Dr, Po, De, Lv. auto.
    - destruct (newcomers _ _ _ _ _ _ _ _ _ _ _ s D s' R H i n' Hi L) as (p & m & dg & _ & _ & _ & _ & _ & (n & dr & mu & sz & rt & Hn & B & Dn & _) & _).
      unfold node_at in Hi, Hn. rewrite Hi in Hn. injection Hn as <-. destruct B as (_ & _ & Lv & _ & P1 & _ & P2 & _). apply fit_born in Dn.
      unfold held. rewrite P1, P2, Lv. destruct Dn as (D1 & D2). auto.
  Qed.

  Lemma held_run sampling x mpr pop s0 : start_hgs N args C sampling x mpr pop = Ok s0 ->
    forall Ds s, run_hgs N args hv_of raw EPSILON C Ds s0 = Ok s -> forall i n, node_at s i n -> held n.
  Proof.
    intros E0. unfold start_hgs in E0. set (run := run_hgs N args hv_of raw EPSILON C).
    assert (Rapp : forall Ds t D, run (Ds ++ [D]) t = bind (run Ds t) (fun u => step u D)).
    { unfold run, run_hgs, step, hgs_run. induction Ds as [|D' Ds IH]; intros t D; cbn [app fold_ok].
      - cbn. destruct (hgs_step _ _ _ _ _ _ _ _ _ _ _ t D); reflexivity.
      - destruct (hgs_step _ _ _ _ _ _ _ _ _ _ _ t D') as [u| |]; cbn [bind]; [apply IH | reflexivity | reflexivity]. }
    intros Ds. induction Ds as [|D Ds IH] using rev_ind; intros s E.
    - injection E as <-. intros i n Hi. pose proof E0 as E1. unfold hgs_init in E0. destruct (get _ 0) as [size| |]; cbn [bind] in E0; try discriminate. destruct (sample _ _ _) as [ch| |]; cbn [bind] in E0; try discriminate.
      unfold new_node in E0. destruct (at_new N args 0 x _) as [dr|] eqn:En; cbn [of_option bind] in E0; try discriminate. destruct (get _ 0) as [ml| |]; cbn [bind] in E0; try discriminate.
      injection E0 as <-. unfold node_at in Hi. cbn [nodes] in Hi. destruct i as [|[|i]]; cbn in Hi; try discriminate. injection Hi as <-. unfold held. cbn. apply fit_born in En. destruct En. auto.
    - rewrite Rapp in E. destruct (run Ds s0) as [t| |] eqn:Et; cbn [bind] in E; try discriminate.
      apply (held_step t D s); [exists sampling, x, mpr, pop, Ds, s0; split; [exact E0 | exact Et] | exact E | apply (IH t eq_refl)].
  Qed.
End Levels.

Lemma trimmed_bits k l : all_trimmed (trim_genes k) l -> (forall v, trim_genes k v = v <-> Forall (short k) v) -> at_most_bits k l.
Proof. intros H E. apply Forall_forall. intros v Hv. apply E. now apply H. Qed.

(** A driver whose states hold trimmed vectors only. *)
Lemma precise {A draw drv} (N : node_driver A draw drv) (args : nat -> A) (evaluated : drv -> list vec) (bits : nat -> nat) (fit : nat -> drv -> Prop) :
  (forall k v, trim_genes k v = v <-> Forall (short k) v) ->
  (forall lv d, fit lv d -> all_trimmed (trim_genes (bits lv)) (evaluated d)) ->
  (forall lv x pop d, n_new N (args lv) x pop = Some d -> fit lv d) ->
  (forall lv x d d', fit lv d -> n_step N (args lv) x d = Some d' -> fit lv d') ->
  (forall lv x d d' pop, fit lv d -> n_final N (args lv) x d = Some (d', pop) -> fit lv d' /\ all_trimmed (trim_genes (bits lv)) pop /\
     forall dels, n_delegates N (args lv) d' = Some dels -> all_trimmed (trim_genes (bits lv)) dels) ->
  precise_in_hgs N args evaluated bits.
Proof.
  intros B Ev Hn Hs Hf hv_of raw EPSILON C sampling x mpr pop Ds s0 s E0 E i n Hi.
  destruct (held_run N args fit (fun lv l d => all_trimmed (trim_genes (bits lv)) l /\ all_trimmed (trim_genes (bits lv)) d)) with (hv_of := hv_of) (raw := raw) (EPSILON := EPSILON) (C := C)
    (sampling := sampling) (x := x) (mpr := mpr) (pop := pop) (s0 := s0) (Ds := Ds) (s := s) (i := i) (n := n) as (_ & G & P1 & P2); auto.
  - intros lv. split; intros v [].
  - intros lv l d d' (H1 & H2) Pe. split; [exact H1|]. intros v Hv. apply H2. now rewrite Pe.
  - intros lv y d d' p G Ef. destruct (Hf lv y d d' p G Ef) as (G' & H1 & H2). split; [exact G'|]. intros dels Ed. auto.
  - split; [|split]; apply trimmed_bits; auto.
Qed.

(** ---- the drivers ---- *)
Lemma tr_in P {T} (g : T -> vec) l : (forall i, In i l -> tr_ok P (g i)) -> all_trimmed (p_trim P) (map g l).
Proof. intros H v Hv. apply in_map_iff in Hv as (i & <- & Hi). exact (H i Hi). Qed.

Lemma first_front_ok P (s : nstate) f : n_ok P s -> first_front P s = Some f -> all_trimmed (p_trim P) f.
Proof.
  intros H E. unfold first_front in E. apply (calc_ok P) in H. destruct (nsgaii_nd_sort _ _ _) as [[|f1 fs]|]; try discriminate; [injection E as <-; intros v []|].
  destruct (select_positions _ f1) as [l|] eqn:El; [|discriminate]. apply some_inj in E. subst f. apply tr_in. exact (selected_ok P _ _ _ _ H El).
Qed.

Lemma n3_front_ok P (HT : rounds_genes (p_trim P)) theta D s f : n3_ok P s -> n3_front P theta D s = Some f -> all_trimmed (p_trim P) f.
Proof.
  intros (H1 & H2) E. unfold n3_front in E. destruct (make_offspring P D _ _) as [off|] eqn:Eo; [|discriminate].
  destruct (update_ideal_point P _ _ off) as [((off' & ctx) & ideal)|] eqn:Eu; [|discriminate].
  assert (G : pool_ok P off' (snd ctx)).
  { apply (uip_ok P _ _ _ _ _ _) in Eu; [exact Eu|]. split; [|exact H2]. unfold make_offspring in Eo.
    destruct (comprehension _ _) as [pairs|]; [|discriminate]. injection Eo as <-. intros i Hi.
    apply in_map_iff in Hi as (x & <- & _). apply tr_trim. exact HT. }
  destruct (normalize _ _ _ _) as [ns|]; [|discriminate]. destruct (clustering _ _) as [cs|]; [|discriminate]. cbv zeta in E.
  destruct (nd_sort_gen _ _ _) as [fronts|]; [|discriminate]. apply some_inj in E. subst f. intros v Hv. apply in_map_iff in Hv as (i & <- & _). unfold at_pos.
  apply (nth_or (fun i => tr_ok P (iv i))); [exact (tr_nil P HT)|]. intros a Ha. apply in_app_or in Ha as [Ha|Ha]; [apply (proj1 G)|apply H1]; exact Ha.
Qed.

Lemma nl_front_ok P (HT : rounds_genes (p_trim P)) D s f : nsls_ok P s -> nl_front P D s = Some f -> all_trimmed (p_trim P) f.
Proof.
  intros (H1 & H2) E. unfold nl_front in E. destruct (nl_context s) as ((c & ar) & tr) eqn:Ec. cbn in H2.
  pose proof (evaluate_fold P (nl_individuals s) [] c ar tr H1) as F.
  destruct (fold_left (evaluate P) (nl_individuals s) ([], (c, ar, tr))) as (inds & ((c1 & ar1) & tr1)).
  cbn [fst snd] in F. destruct F as (F1 & F2); [split; [intros i []|exact H2]|].
  destruct (local_search P D _) as [(inds' & ctx)|] eqn:El; [|discriminate].
  assert (G : forall i, In i inds' -> tr_ok P (iv i)).
  { unfold local_search in El. destruct (for_each _ _ _) as [(copy & ctx')|] eqn:Ef; [|discriminate]. injection El as <- <-.
    assert (K : copy_ok P (copy, ctx')).
    { apply (for_each_ok _ (copy_ok P)) in Ef; [exact Ef| |].
      - intros a st st' Hst. apply (for_each_ok _ (copy_ok P)); [|exact Hst]. intros k st1 st2. now apply search_one_ok.
      - split; cbn [fst snd]; [|exact F2]. intros i Hi. rewrite map_map, map_id in Hi. auto. }
    destruct K as (K1 & K2). cbn [fst snd] in K1, K2. intros i Hi. apply in_app_or in Hi as [Hi|Hi]; [auto|].
    apply K1. apply in_map_iff in Hi as (q & <- & Hq). apply in_map. apply filter_In in Hq. apply Hq. }
  destruct (nsls_nd_sort _ _ _) as [fronts|]; [|discriminate]. apply some_inj in E. subst f. intros v Hv. apply in_map_iff in Hv as (i & <- & _). unfold at_pos.
  apply (nth_or (fun i => tr_ok P (iv i))); [exact (tr_nil P HT)|exact G].
Qed.
