(** What a driver must do for IMGA over it to be safe; and that each driver does it. *)
From Coq Require Import QArith Reals.
From Verif Require Import Spec Base DomModel VarModel VarProofs NDSortModel NsgaModel NsgaProofs
  SpeaSpec SpeaModel SpeaProofs IbeaModel IbeaProofs SmsSpec SmsModel SmsProofs JgblSpec JgblModel JgblProofs OmopsoSpec OmopsoModel OmopsoProofs Nsga3Spec Nsga3Model Nsga3Proofs NslsSpec NslsModel NslsProofs
  HgsDriversModel HgsDriversSpec HgsDriversContracts ImgaModel ImgaSpec ImgaRunModel ImgaRunProofs ImgaDriversModel ImgaDriversSpec.
Local Open Scope nat_scope.

Section Contract.
  Context {draw drv ind : Type}.
  Variable I : island_driver draw drv ind.
  Variable b : box.
  Variable X : expectation.
  (** [iok T N d]: a driver of an island of [N] after [T] steps; [mok]: its individuals. *)
  Record island_contract (iok : nat -> nat -> drv -> Prop) (mok : ind -> Prop) : Prop := {
    ic_cost : forall d l, i_cost I (i_set I d l) = i_cost I d;
    ic_new : forall a, Forall (in_box b) a -> 1 <= length a -> fewest X <= length a -> exists d, i_new I a = Some d /\ iok 0 (length a) d;
    ic_step : forall T N x d, 1 <= N -> fewest X <= N -> iok T N d -> exists d', i_step I x d = Some d' /\ iok (S T) N d';
    ic_room : forall T N d, 1 <= T -> iok T N d -> room X N (length (i_inds I d));
    ic_members : forall T N d, iok T N d -> Forall mok (i_inds I d);
    ic_admit : forall i, mok i -> mok (i_admit I i);
    ic_set : forall T N d l, 1 <= N -> 1 <= T -> iok T N d -> Forall mok l -> length l = length (i_inds I d) -> iok T N (i_set I d l);
    ic_box : forall i, mok i -> in_box b (i_value I i);
    ic_final : forall T N d, 1 <= N -> fewest X <= N -> iok T N d -> exists d' out, i_final I d = Some (d', out) /\ returned X T N (length out) /\ Forall (in_box b) out;
    ic_spent : forall T N d, iok T N d -> spent X T N (i_cost I d)
  }.

  Lemma contract_safe f fm iok mok : (forall v, length (f v) = fm) -> island_contract iok mok -> safe_in_imga I b f X.
  Proof.
    intros Hf C width n m E pop topo Ds [HB Hw Hn HE (t & Et & HS) HD] Hmin Hroom.
    assert (Div : 1 <= length pop / n) by (apply Nat.div_le_lower_bound; lia).
    assert (Min : fewest X <= length pop / n) by (apply Nat.div_le_lower_bound; lia).
    destruct (torus_run drv draw ind (i_value I) (i_admit I) (i_step I) (i_cost I) (i_inds I) (i_set I) (i_final I) (i_new I) f fm Hf (ic_cost _ _ C)
      width n m E pop t topo Hw Hn HE Et HS iok mok (in_box b) (fun T N out => returned X T N (length out) /\ Forall (in_box b) out) HB) with (Ds := Ds)
      as (s0 & s & outs & sizes & E0 & E1 & E2 & Sum & Sz & HI & HO & HC).
    - intros a Ha HN. apply (ic_new _ _ C); auto; lia.
    - intros T N x d HN HI. apply (ic_step _ _ C); auto; lia.
    - intros T N d HN HT HI. eapply Hroom; [exact HN|]. eapply (ic_room _ _ C); eauto.
    - intros T N d. apply (ic_members _ _ C).
    - apply (ic_admit _ _ C).
    - intros T N d l HN. apply (ic_set _ _ C). lia.
    - intros T N d HN HI. destruct (ic_final _ _ C T N d) as (d' & out & Ef & R & B); try lia; auto. exists d', out. auto.
    - exact HD.
    - exists s0, s, (concat outs). split; [exact E0|]. split; [exact E1|]. split; [exact E2|]. split.
      + clear - HO. induction HO as [|N o szs os (_ & B) _ IH]; [constructor|]. cbn [concat]. apply Forall_app. auto.
      + exists sizes, outs. split; [exact Sum|]. split; [reflexivity|]. split; [eapply Forall2_impl; [|exact HO]; cbn; tauto|]. split.
        * eapply Forall2_impl; [|exact HI]. intros N d H. split; [|split].
          -- eapply Forall_impl; [|exact (ic_members _ _ C _ _ _ H)]. apply (ic_box _ _ C).
          -- intros HT. eapply (ic_room _ _ C); eauto.
          -- eapply (ic_spent _ _ C); eauto.
        * rewrite HC. destruct Ds as [|D Ds]; [reflexivity|]. destruct (length (D :: Ds) * E =? 0) eqn:Z; [|reflexivity].
          apply Nat.eqb_eq in Z. cbn in Z. lia.
  Qed.
End Contract.

(** ---- runs that may not end ---- *)
Section Totalised.
  Context {draw drv ind : Type}.
  Variable I : island_driver draw drv ind.
  (** a driver that stays as it is instead of raising *)
  Definition patient : island_driver draw drv ind := {|
    i_value := i_value I; i_admit := i_admit I; i_step := fun x d => match i_step I x d with Some d' => Some d' | None => Some d end;
    i_cost := i_cost I; i_inds := i_inds I; i_set := i_set I; i_final := i_final I; i_new := i_new I
  |}.

  Lemma patient_epoch draws : forall s message r, epoch drv draw (i_step I) (i_cost I) draws s message = Some r ->
    epoch drv draw (i_step patient) (i_cost patient) draws s message = Some r.
  Proof.
    induction draws as [|d draws IH]; intros s message r H; [exact H|]. cbn [epoch] in *. cbn [patient i_step i_cost].
    destruct (i_step I d s) as [s'|]; [|discriminate]. apply IH, H.
  Qed.
  Lemma collect_le {A B} (g h : A -> option B) (l : list A) r : (forall a b, g a = Some b -> h a = Some b) ->
    collect (map g l) = Some r -> collect (map h l) = Some r.
  Proof.
    intros H. revert r. induction l as [|a l IH]; intros r E; [exact E|]. cbn [map collect] in *.
    destruct (g a) as [b'|] eqn:Eg; [|discriminate]. rewrite (H _ _ Eg). destruct (collect (map g l)) as [r'|]; [|discriminate].
    rewrite (IH r' eq_refl). exact E.
  Qed.
  Lemma patient_run f Ds : forall s s', run_imga I f Ds s = Some s' -> run_imga patient f Ds s = Some s'.
  Proof.
    unfold run_imga. induction Ds as [|D Ds IH]; intros s s' H; [exact H|]. cbn [imga_steps] in *.
    destruct (imga_step drv draw ind (i_value I) (i_admit I) (i_step I) (i_cost I) (i_inds I) (i_set I) f D s) as [s1|] eqn:E1; [|discriminate].
    assert (E2 : imga_step drv draw ind (i_value patient) (i_admit patient) (i_step patient) (i_cost patient) (i_inds patient) (i_set patient) f D s = Some s1).
    { unfold imga_step in *.
      match type of E1 with context [collect (map ?g ?l)] => destruct (collect (map g l)) as [results|] eqn:Ec; [|discriminate] end.
      rewrite (collect_le _ (fun kd => epoch drv draw (i_step patient) (i_cost patient) (in_epoch D (fst kd)) (snd kd) None) _ _ (fun kd r => patient_epoch _ _ _ _) Ec).
      exact E1. }
    rewrite E2. apply IH, H.
  Qed.

  Lemma patient_sound b f X : safe_in_imga patient b f X -> sound_in_imga I b f X.
  Proof.
    intros H width n m E pop topo Ds s0 s out HP Hmin Hroom E0 E1 E2.
    destruct (H width n m E pop topo Ds HP Hmin Hroom) as (s0' & s' & out' & F0 & F1 & F2 & G).
    change (start_imga I topo n pop = Some s0') in F0. rewrite E0 in F0. injection F0 as <-.
    apply patient_run in E1. rewrite E1 in F1. injection F1 as <-.
    change (result_imga I s = Some out') in F2. rewrite E2 in F2. injection F2 as <-. exact G.
  Qed.
End Totalised.

(** ---- A step of IMGA ---- *)
Section Parts.
  Context {draw drv ind : Type}.
  Variable I : island_driver draw drv ind.
  Lemma epoch_island draws : forall d message r, epoch drv draw (i_step I) (i_cost I) draws d message = Some r -> island_steps I draws d = Some (fst r).
  Proof.
    induction draws as [|x draws IH]; intros d message r H; cbn [epoch island_steps] in *.
    - destruct message; [|discriminate]. injection H as <-. reflexivity.
    - destruct (i_step I x d) as [d'|]; [|discriminate]. eapply IH, H.
  Qed.
  Lemma imga_parts f : (forall i, i_value I (i_admit I i) = i_value I i) -> (forall d l, i_inds I (i_set I d l) = l) -> (forall d l, i_cost I (i_set I d l) = i_cost I d) ->
    epochs_then_migration I f.
  Proof.
    intros Ha Hs Hc. split; [exact Ha|]. intros D s s' H. unfold run_imga in H. cbn [imga_steps] in H. unfold imga_step in H.
    match type of H with context [collect ?x] => destruct (collect x) as [results|] eqn:Ec; [|discriminate] end. cbv zeta in H.
    destruct (migration _ _ f _ _ _) as [islands|] eqn:Em; [|discriminate]. injection H as <-. cbn [imga_drivers imga_topology].
    assert (Li : length islands = length results) by (rewrite (ImgaRunProofs.migration_length _ _ _ _ _ _ _ Em), map_length; reflexivity).
    exists (map fst results). split; [|split; [|exists islands; split; [|split; [|split; [|reflexivity]]]]].
    - rewrite map_length, (collect_length _ _ Ec), map_length, combine_length, seq_length. lia.
    - apply collect_Forall2 in Ec. intros k d Hk.
      assert (G : forall (l : list drv) res base, Forall2 (fun o a => o = Some a) (map (fun kd : nat * drv => epoch drv draw (i_step I) (i_cost I) (in_epoch D (fst kd)) (snd kd) None) (combine (seq base (length l)) l)) res ->
         forall k d, nth_error l k = Some d -> exists d', nth_error (map fst res) k = Some d' /\ island_steps I (in_epoch D (base + k)) d = Some d').
      { clear. induction l as [|x l IH]; intros res base HF k d Hk; [destruct k; discriminate|]. cbn [length seq combine map fst snd] in HF. inversion HF as [|o a ol al Eo Er]; subst.
        destruct k as [|k]; cbn in Hk.
        - injection Hk as ->. exists (fst a). split; [reflexivity|]. rewrite Nat.add_0_r. eapply epoch_island; exact Eo.
        - destruct (IH al (S base) Er k d Hk) as (d' & E1 & E2). exists d'. split; [exact E1|]. replace (base + S k) with (S base + k) by lia. exact E2. }
      apply (G _ _ 0 Ec k d Hk).
    - rewrite map_map. exact Em.
    - clear -Li Hs. revert islands Li. induction results as [|r results IH]; intros [|i islands] Li; try discriminate; [reflexivity|]. cbn [combine map fst snd]. cbn in Li. rewrite IH by lia. now rewrite Hs.
    - clear -Li Hc. revert islands Li. induction results as [|r results IH]; intros [|i islands] Li; try discriminate; [reflexivity|]. cbn [combine map fst snd]. cbn in Li. rewrite IH by lia. now rewrite Hc.
  Qed.
End Parts.

(** ---- NSGA-II and JGBL ---- *)
Lemma jgbl_island_contract P mating : valid_box (p_dims P) -> fair_problem (p_dims P) P -> (0 < p_eps P)%Q ->
  island_contract (jgbl_island_driver P mating) (p_dims P) {| fewest := 1; room := fun N k => k = N \/ k = N + mating N; returned := fun T N k => k = N; spent := fun T N c => N + T * mating N <= c |}
    (fun T N s => inv P N (mating N) s /\ archive s = None /\ N + T * mating N <= cost s /\ (1 <= T -> length (individuals s) = N \/ length (individuals s) = N + mating N)) (good P).
Proof.
  intros Vb (_ & Ht & Hf & He & Hi) Hq. constructor.
  - reflexivity.
  - intros a Ha _ _. eexists. split; [reflexivity|]. destruct (NsgaProofs.init_ok P Ht mating None a Ha) as (In & L & C & _); [intros m0 k o; discriminate|].
    destruct (C eq_refl) as (C1 & C2). split; [exact In|]. split; [exact C1|]. split; [rewrite C2; lia | lia].
  - intros T N (D & (J & HJ)) s HN _ (In & A & C & _). cbn [jgbl_island_driver i_step fst snd proj1_sig].
    destruct (jstep_ok P Vb Ht Hf He Hq Hi N (mating N) D J s HN In HJ) as (plain & s' & _ & Es & In' & Ip & Ad & Lp & _ & union & front & _ & _ & Hle & Hgt).
    exists s'. split; [exact Es|]. destruct Ad as (new & En & H1 & _). destruct (H1 A) as (A1 & A2).
    assert (Cp : cost plain = cost s + mating N).
    { destruct In as (_ & _ & _ & _ & _ & Hc). destruct Ip as (_ & _ & _ & _ & _ & Hc'). rewrite Hc', En, app_length. lia. }
    split; [exact In'|]. destruct (Nat.le_gt_cases (length front) N) as [Hc|Hc].
    + rewrite (Hle Hc) in *. split; [exact A1|]. split; [cbn; lia | intros _; right; exact Lp].
    + destruct (Hgt Hc) as (L1 & (new1 & En1 & H1' & _) & _). destruct (H1' A1) as (A1' & A2').
      split; [exact A1'|]. split; [|intros _; left; exact L1].
      destruct Ip as (_ & _ & _ & _ & _ & Hcp). destruct In' as (_ & _ & _ & _ & _ & Hc'). rewrite Hc', En1, app_length. cbn. lia.
  - intros T N d HT (_ & _ & _ & L). exact (L HT).
  - intros T N d ((G & _) & _). exact G.
  - auto.
  - intros T N d l _ _ ((G & I2 & I3 & I4 & I5 & I6) & A & C & L) Hl Hn. cbn [jgbl_island_driver i_inds i_set] in *.
    split; [|split; [exact A|]; split; [exact C|]].
    + split; [exact Hl|]. split; [exact I2|]. split; [exact I3|]. split; [cbn; rewrite Hn; exact I4|]. split; [exact I5 | exact I6].
    + intros HT. cbn. rewrite Hn. now apply L.
  - intros i (B & _). exact B.
  - intros T N d HN _ (In & _). destruct (finish_ok P Hf Hq Hi N (mating N) d In) as (s' & out & Ef & _ & _ & Lo & Bo & _). exists s', out. auto.
  - intros T N d (_ & _ & C & _). exact C.
Qed.

(** ---- SPEA2 ---- *)
Lemma none_ok P (m : list (vec * vec)) k o : None = Some m -> lookup k m = Some o -> o = p_f P k.
Proof. discriminate. Qed.

Lemma spea_island_contract P : valid_box (p_dims P) -> fair_problem (p_dims P) P ->
  island_contract (spea_island_driver P) (p_dims P) (constant_size 2 (fun T N k => k = if T =? 0 then 0 else N) (fun T N c => c = N * T))
    (fun T N d => fst d = N /\ spea_inv P None N T (snd d)) (in_box (p_dims P)).
Proof.
  intros Vb (_ & Ht & Hf & He & Hi). constructor.
  - reflexivity.
  - intros a Ha _ _. eexists. split; [reflexivity|]. cbn [fst snd]. split; [reflexivity|].
    unfold spea_inv, spea_init. cbn. rewrite map_length. split; [reflexivity|]. split; [rewrite Forall_map; eapply Forall_impl; [|exact Ha]; exact Ht|].
    split; [reflexivity|]. split; [constructor|]. intros _. rewrite Nat.mul_0_r. auto.
  - intros T N (D & HD) (n & s) _ H2 (E & In). cbn [fst snd] in *. subst n. cbn [spea_island_driver i_step fst snd proj1_sig].
    destruct (SpeaProofs.step_ok P Vb Ht Hf He None (none_ok P) N H2 T (D N) s (HD N H2) In) as (s' & E & In'). rewrite E.
    exists (N, s'). auto.
  - intros T N d _ (_ & L & _). exact L.
  - intros T N d (_ & _ & B & _). exact B.
  - auto.
  - intros T N d l _ _ (E & L & _ & In) Hl Hn. cbn [spea_island_driver i_inds i_set] in *. split; [exact E|].
    split; [cbn; rewrite Hn; exact L|]. split; [exact Hl | exact In].
  - auto.
  - intros T N d _ _ (_ & _ & _ & L & G & _). exists d, (spea_finalized (snd d)). split; [reflexivity|].
    unfold spea_finalized. rewrite map_length. split; [exact L|]. rewrite Forall_map. eapply Forall_impl; [|exact G]. intros m (B & _). exact B.
  - intros T N d (_ & _ & _ & _ & _ & C). apply (C eq_refl).
Qed.

(** ---- SMS-EMOA ---- *)
Lemma sms_island_contract a : valid_box (p_dims (sa_params a)) -> sms_setting (p_dims (sa_params a)) a ->
  island_contract (sms_island_driver a) (p_dims (sa_params a)) (constant_size 2 (fun T N k => k = N) (fun T N c => c = N + T * sa_epoch a N * N))
    (fun T N d => fst d = sa_epoch a N /\ sms_inv (sa_params a) None N (T * sa_epoch a N) (snd d)) (ok_member (sa_params a)).
Proof.
  intros Vb ((_ & Ht & Hf & He & Hi) & Hr & Hm & Hlow). set (P := sa_params a) in *.
  assert (Hf' : forall v, length (p_f P v) = length (sa_ref a)) by (intros v; rewrite Hf; exact Hm). constructor.
  - reflexivity.
  - intros v Ha _ H2. eexists. split; [reflexivity|]. cbn [fst snd]. split; [reflexivity|].
    eapply SmsProofs.init_ok; eauto using none_ok.
  - intros T N (D & HD) (e & s) _ H2 (E & In). cbn [fst snd constant_size fewest] in *. subst e. cbn [sms_island_driver i_step fst snd proj1_sig]. fold P.
    assert (Ln : length (sms_individuals s) = N) by apply In. rewrite Ln.
    destruct (SmsProofs.steps_ok P (sa_neg a) (sa_ref a) Vb Ht Hr Hf' Hlow He Hi None (none_ok P) N H2 (sa_epoch a N) [D N] (T * sa_epoch a N) s) as (s' & E & In' & _);
      [constructor; [intros i _; now apply HD | constructor] | exact In|].
    cbn [sms_steps] in E. destruct (sms_step P (sa_neg a) (sa_ref a) None (sa_epoch a N) (D N) s) as [s1|] eqn:E1; [|discriminate]. injection E as ->.
    exists (sa_epoch a N, s'). split; [reflexivity|]. split; [reflexivity|]. cbn [snd length] in *. rewrite Nat.mul_1_l in In'. now rewrite Nat.mul_succ_l.
  - intros T N d _ (_ & L & _). exact L.
  - intros T N d (_ & _ & B & _). exact B.
  - auto.
  - intros T N d l _ _ (E & L & _ & In) Hl Hn. cbn [sms_island_driver i_inds i_set] in *. split; [exact E|].
    split; [cbn; rewrite Hn; exact L|]. split; [exact Hl | exact In].
  - intros i (B & _). exact B.
  - intros T N d _ _ (_ & L & G & _). exists d, (sms_finalized (snd d)). split; [reflexivity|].
    unfold sms_finalized. rewrite map_length. split; [exact L|]. rewrite Forall_map. eapply Forall_impl; [|exact G]. intros m (B & _). exact B.
  - intros T N d (_ & _ & _ & C). destruct (C eq_refl) as (C1 & _). exact C1.
Qed.

(** ---- OMOPSO ---- *)
Lemma reset_speed_ok P p : part_ok P p -> part_ok P (reset_speed p).
Proof.
  intros (I1 & _ & I3 & I4). unfold part_ok, reset_speed. cbn [OmopsoModel.value speed objectives bests visited].
  split; [exact I1|]. split; [|split; [exact I3 | exact I4]]. rewrite repeat_length. destruct I1 as (B & _). now apply in_box_length in B.
Qed.

Lemma omopso_island_contract P en ed : valid_box (p_dims P) -> fair_problem (p_dims P) P -> 1 <= p_m P ->
  island_contract (omopso_island_driver P en ed) (p_dims P) (constant_size 1 (fun T N k => 1 <= k) (fun T N c => c = N * (1 + T)))
    (fun T N s => exists past, om_ok_from P None past N s /\ om_cost s = N * (1 + T)) (part_ok P).
Proof.
  intros Vb (_ & Ht & Hf & He & Hi) Hm. constructor.
  - reflexivity.
  - intros a Ha H1 _. destruct (om_init_ok P Ht Hf Hm None (none_ok P) en ed a) as (s & E & Ok & C & _); [destruct a; [cbn in H1; lia | discriminate] | exact Ha|].
    exists s. split; [exact E|]. exists []. split; [exact Ok|]. rewrite (C eq_refl). lia.
  - intros T N (D & HD) s Hn _ (past & Ok & C). cbn [omopso_island_driver i_step proj1_sig].
    destruct (om_step_ok_from P Vb Ht Hf Hm None (none_ok P) en ed past N s (D (length (om_leaders s))) Hn Ok) as (s' & E & Ok' & _ & (more & Em & _ & Hmore)).
    { intros k _ L. apply HD. exact L. }
    exists s'. split; [exact E|]. exists past. split; [exact Ok'|].
    destruct Ok as (_ & _ & _ & _ & _ & _ & _ & _ & C1). destruct Ok' as (L' & _ & _ & _ & _ & _ & _ & _ & C2).
    rewrite (C2 eq_refl), Em, app_length, <- (C1 eq_refl), C, (Hmore eq_refl), map_length, L'. lia.
  - intros T N d _ (past & (L & _) & _). exact L.
  - intros T N d (past & (_ & _ & F & _) & _). exact F.
  - intros i. apply reset_speed_ok.
  - intros T N d l _ _ (past & (I1 & I2 & I3 & I4 & I5 & I6 & I7 & I8 & I9) & C) Hl Hn. cbn [omopso_island_driver i_inds i_set] in *.
    exists (past ++ visits (om_particles d)). split; [|exact C]. unfold om_ok_from, om_replace. cbn [om_particles om_leaders om_archive om_size om_cost om_evals].
    assert (W : forall x, sound P (past ++ visits (om_particles d)) x -> sound P ((past ++ visits (om_particles d)) ++ visits l) x).
    { intros x (A1 & A2 & A3). split; [exact A1|]. split; [exact A2|]. apply in_or_app. now left. }
    split; [rewrite Hn; exact I1|]. split; [exact I2|]. split; [exact Hl|]. split; [exact I4|]. split; [eapply Forall_impl; [|exact I5]; exact W|].
    split; [exact I6|]. split; [eapply Forall_impl; [|exact I7]; exact W|]. auto.
  - intros i ((B & _) & _). exact B.
  - intros T N d _ _ (past & (_ & _ & _ & _ & _ & Ne & F & _) & _). exists d, (om_finalized d). split; [reflexivity|].
    unfold om_finalized. rewrite map_length. split; [cbn; destruct (om_archive d); [congruence | cbn; lia]|].
    rewrite Forall_map. eapply Forall_impl; [|exact F]. intros l (_ & (B & _) & _). exact B.
  - intros T N d (past & _ & C). exact C.
Qed.

(** ---- NSGA-III ---- *)
Lemma n3_island_contract P theta rands : n3_setting P -> (forall k i, (0 < rands k i < 1)%R) ->
  island_contract (n3_island_driver P theta rands) (p_dims P) (constant_size 2 (fun T N k => k = N) (fun T N c => c <= N + T * (2 * (N / 2))))
    (fun T N s => n3_open P N s /\ snd (fst (n3_context s)) = None /\ fst (fst (n3_context s)) <= N + T * (2 * (N / 2))) (settled P).
Proof.
  intros (Vb & Ht & Hid & Hf & Hm & He & Hi) Hr. constructor.
  - reflexivity.
  - intros a Ha H1 H2. unfold n3_island_driver; cbn [i_new].
    destruct (n3_init_ok P Ht Hid Hf Hm rands None a Hr) as (s & E & Ok & Es); [discriminate | exact Ha|].
    exists s. split; [exact E|]. split; [now apply n3_ok_open|].
    unfold n3_init in E. set (inds := map _ a) in E.
    destruct (update_open P Hf Hm [] (repeat None (p_m P)) [] (0, None, []) inds) as (inds' & ctx & ideal & EU & _ & _ & _ & _ & K).
    + unfold inds. rewrite Forall_map. eapply Forall_impl; [|exact Ha]. intros v Hv. unfold newborn. cbn [iv iobj].
      split; [now apply Ht|]. split; [apply Hid|]. split; [now left | congruence].
    + exact (best_point_init Z.le (p_m P)).
    + split; [reflexivity | discriminate].
    + rewrite EU in E. injection E as <-. cbn [n3_context]. destruct (K eq_refl) as (K1 & K2). split; [exact K1|]. cbn [fst snd] in K2.
      unfold inds in K2. rewrite map_length in K2. lia.
  - intros T N (D & HD) s H1 H2 (Ok & A & C). cbn [n3_island_driver i_step proj1_sig constant_size fewest] in *.
    assert (Hs : n3_size s = N) by apply Ok. rewrite Hs.
    destruct (n3_open_step P Vb Ht Hid Hf Hm He Hi theta N (D N) s H2 (HD N H2) Ok) as (s' & E & Ok' & K). rewrite E.
    exists s'. split; [reflexivity|]. split; [exact Ok'|]. destruct (K A) as (K1 & K2). split; [exact K1 | lia].
  - intros T N d _ ((_ & L & _) & _). exact L.
  - intros T N d ((F & _) & _). exact F.
  - auto.
  - intros T N d l _ _ ((I1 & I2 & I3 & In) & A & C) Hl Hn. cbn [n3_island_driver i_inds i_set] in *. split; [|split; [exact A | exact C]].
    split; [exact Hl|]. split; [cbn; rewrite Hn; exact I2|]. split; [exact I3 | exact In].
  - intros i ((B & _) & _). exact B.
  - intros T N d _ _ ((F & L & _) & _). exists d, (n3_finalized d). split; [reflexivity|].
    unfold n3_finalized. rewrite map_length. split; [exact L|]. rewrite Forall_map. eapply Forall_impl; [|exact F]. intros i ((B & _) & _). exact B.
  - intros T N d (_ & _ & C). exact C.
Qed.

(** ---- NSLS ---- *)
Lemma nsls_island_contract P : fair_problem (p_dims P) P -> (forall k v, in_box_except k (p_dims P) v -> in_box_except k (p_dims P) (p_trim P v)) -> 1 <= p_m P ->
  island_contract (patient (nsls_island_driver P)) (p_dims P) (constant_size 2 (fun T N k => k = N) (fun T N c => True))
    (fun T N s => nsls_ok P N s) (fun x => in_box (p_dims P) (iv x) /\ cached_ok P x).
Proof.
  intros (_ & _ & Hf & _ & Hi) Ht Hm. constructor.
  - reflexivity.
  - intros a Ha _ _. eexists. split; [reflexivity|]. apply nsls_init_ok; [exact Ht | discriminate | exact Ha].
  - intros T N (x & Hx1 & Hx2) s H1 H2 Ok. cbn [patient nsls_island_driver i_step proj1_sig constant_size fewest] in *.
    assert (Hs : nl_size s = N) by apply Ok. rewrite Hs.
    destruct (nsls_step P (2 * N) (nli_search x N) (nli_sample x) s) as [s'| |] eqn:Es; [|exists s; auto|exists s; auto].
    exists s'. split; [reflexivity|].
    assert (G : ls_good P N (nli_search x N)) by (intros i k _ _; now apply Hx1).
    destruct (nsls_step_ok P Ht Hf Hm Hi N (nli_search x N) (nli_sample x) s G Hx2 Ok) as (inds & copy & ctx' & EL & HR & HLc & H0 & Hdone).
    destruct (filter snd copy) as [|e0 rest] eqn:Efil; [rewrite (H0 eq_refl) in Es; discriminate|]. rewrite <- Efil in *.
    destruct (Hdone ltac:(rewrite Efil; discriminate) (2 * N) (le_n _)) as (s'' & Es' & Ok' & _). rewrite Es in Es'. injection Es' as <-. exact Ok'.
  - intros T N d _ (_ & L & _). exact L.
  - intros T N d (F & _). exact F.
  - auto.
  - intros T N d l _ _ (I1 & I2 & In) Hl Hn. cbn [patient nsls_island_driver i_inds i_set] in *.
    split; [exact Hl|]. split; [cbn; rewrite Hn; exact I2 | exact In].
  - intros i (B & _). exact B.
  - intros T N d _ _ (F & L & _). exists d, (nsls_finalized d). split; [reflexivity|].
    unfold nsls_finalized. rewrite map_length. split; [exact L|]. rewrite Forall_map. eapply Forall_impl; [|exact F]. intros i (B & _). exact B.
  - constructor.
Qed.

(** ---- IBEA ---- *)
Lemma ibi_select_now P s : ibi_measured s = map ib_v (ib_individuals (ibi_state s)) -> ibi_select P s = ibea_select P (ibi_state s).
Proof.
  intros E. unfold ibi_select, ibea_select, select, ibi_ranges. rewrite E, map_length. set (inds := ib_individuals (ibi_state s)).
  assert (EM : measured (p_m (ip P)) (fun x => p_f (ip P) (nth x (map ib_v inds) [])) (seq 0 (length inds)) =
               measured (p_m (ip P)) (fun x => p_f (ip P) (ib_vec inds x)) (seq 0 (length inds))).
  { apply MetProofs.comprehension_ext. intros j _.
    assert (G : forall l, map (ob (fun x => p_f (ip P) (nth x (map ib_v inds) [])) j) l = map (ob (fun x => p_f (ip P) (ib_vec inds x)) j) l).
    { intros l. apply map_ext. intros x. unfold ob, ib_vec. f_equal. f_equal. change (@nil Z) with (ib_v (mk_ibea [] false)). now rewrite map_nth. }
    now rewrite G. }
  rewrite EM. clear EM. destruct (measured _ _ _); reflexivity.
Qed.

Lemma scaled_values P s : map ib_v (ib_individuals (scale_objectives (ip_fa P) s)) = map ib_v (ib_individuals s).
Proof. destruct (scale_objectives_spec (ip_fa P) s) as (newly & _ & S1 & _). rewrite S1, map_map. reflexivity. Qed.

(** Without migration the island's driver is the driver. *)
Lemma ibi_step_now P D s : ibi_measured s = map ib_v (ib_individuals (ibi_state s)) ->
  ibi_step P D s = match ibea_step P D (ibi_state s) with
                   | Some s' => Some {| ibi_state := s'; ibi_measured := map ib_v (ib_individuals s') |}
                   | None => None
                   end.
Proof.
  intros E. unfold ibi_step, ibea_step. rewrite (ibi_select_now P s E). destruct (ibea_select P (ibi_state s)) as [(surv, fit)|]; [|reflexivity].
  destruct (ibea_mating D fit surv (ib_mating (ibi_state s))) as [mating|]; [|reflexivity].
  destruct (collect _) as [children|]; [|reflexivity]. unfold ibi_scale. now rewrite scaled_values.
Qed.

Lemma ibi_select_ok P N M size fresh all s : 1 <= p_m (ip P) -> 1 <= N <= size -> ibea_inv P N M size fresh all (ibi_state s) -> ibi_measured s <> [] ->
  exists surv fit, ibi_select P s = Some (surv, fit) /\ length surv = N /\ NoDup surv /\ Forall (fun x => x < size) surv.
Proof.
  intros Hm HN (I1 & I2 & I3 & _) Ne. unfold ibi_select, ibi_ranges.
  destruct (measured_spec (p_m (ip P)) (fun x => p_f (ip P) (nth x (ibi_measured s) [])) (seq 0 (length (ibi_measured s)))) as (ranges & -> & _).
  { destruct (ibi_measured s); [congruence | discriminate]. }
  rewrite I1, I2.
  destruct (select_within_spec (ip_eps P) (ip_kappa P) (p_m (ip P)) (fun x => p_f (ip P) (ib_vec (ib_individuals (ibi_state s)) x)) ranges N (seq 0 size))
    as (surv & fit & rs & J & c & -> & _ & _ & _ & L & ND & HI).
  - exact Hm.
  - destruct size; [lia | discriminate].
  - apply seq_NoDup.
  - exists surv, fit. split; [reflexivity|]. rewrite seq_length in L. split; [lia|]. split; [exact ND|].
    apply Forall_forall. intros x Hx. apply HI, in_seq in Hx. lia.
Qed.

Lemma ibi_step_ok P N M D size fresh all s : valid_box (p_dims (ip P)) -> (forall v, in_box (p_dims (ip P)) v -> in_box (p_dims (ip P)) (p_trim (ip P) v)) ->
  1 <= p_m (ip P) -> (0 <= p_epsilon (ip P))%Z -> 1 <= N <= size -> ibea_inv P N M size fresh all (ibi_state s) -> ibi_measured s <> [] ->
  exists s', ibi_step P D s = Some s' /\ ibea_inv P N M (N + M) (fresh + M) (all + (N + M)) (ibi_state s') /\ ibi_measured s' <> [].
Proof.
  intros Vb Ht Hm He (HN & Hs) HI Ne. unfold ibi_step.
  destruct (ibi_select_ok P N M size fresh all s Hm (conj HN Hs) HI Ne) as (surv & fit & -> & Ls & _ & Fs). cbv zeta.
  set (st := ibi_state s) in *. pose proof HI as (I1 & I2 & I3 & I4 & I5 & I6 & I7 & I8). rewrite I3.
  destruct (ibea_mating_ok P Hm N M HN D fit surv) as (mating & -> & Lm & Im); [intros ->; cbn in Ls; lia|].
  assert (Fm : Forall (fun x => x < size) mating) by (apply Forall_forall; intros x Hx; rewrite Forall_forall in Fs; auto).
  destruct (collect_map (ibea_child (ip P) D (ib_individuals st) mating M) (fun _ c => in_box (p_dims (ip P)) (ib_v c) /\ ib_known c = false) (seq 0 M))
    as (children & -> & HC).
  { intros i Hi. apply in_seq in Hi. apply (ibea_child_ok P Vb Ht Hm He N M HN D size fresh all st mating i HI Lm Fm). lia. }
  eexists. split; [reflexivity|]. unfold ibi_scale. cbn [ibi_state ibi_measured].
  assert (LC : length children = M) by (apply Forall2_length' in HC; rewrite seq_length in HC; lia).
  split.
  - pose proof (scale_inv P Hm N M HN (N + M) fresh all
      (map (fun x => nth x (ib_individuals st) (mk_ibea [] false)) surv) children
      (ib_with st (map (fun x => nth x (ib_individuals st) (mk_ibea [] false)) surv ++ children))) as G.
    rewrite LC in G. rewrite map_length in G. cbn [ib_with ib_individuals ib_size ib_mating ib_cost ib_charged] in G.
    apply G; auto; try (rewrite Ls; lia).
    + apply (kept_ok P Hm N M HN size fresh all st surv HI Fs).
    + apply Forall_forall. intros c Hc. destruct (MetProofs.Forall2_In_r _ _ _ _ HC Hc) as (i & _ & Hi). exact Hi.
  - cbn [ib_with ib_individuals]. rewrite map_app. intros X. apply app_eq_nil in X. destruct X as (X & _). rewrite map_map in X. apply map_eq_nil in X.
    rewrite X in Ls. cbn in Ls. lia.
Qed.

Lemma ibea_island_contract P eps kappa mating : valid_box (p_dims P) -> fair_problem (p_dims P) P -> 1 <= p_m P ->
  island_contract (ibea_island_driver P eps kappa mating) (p_dims P)
    {| fewest := 1; room := fun N k => k = N + mating N; returned := fun T N k => k = N; spent := fun T N c => c = N + T * (N + mating N) |}
    (fun T N s => exists fresh all, ibea_inv {| ip := P; ip_eps := eps; ip_kappa := kappa; ip_fa := None |} N (mating N) (if T =? 0 then N else N + mating N) fresh all (ibi_state s) /\
       all = N + T * (N + mating N) /\ ibi_measured s <> [])
    (fun i => in_box (p_dims P) (ib_v i) /\ ib_known i = true).
Proof.
  intros Vb (_ & Ht & Hf & He & Hi) Hm. set (Q := {| ip := P; ip_eps := eps; ip_kappa := kappa; ip_fa := None |}). constructor.
  - reflexivity.
  - intros a Ha H1 _. eexists. split; [reflexivity|]. exists (length a), (length a).
    split; [exact (ibea_start Q mating a Ht Hm H1 Ha)|]. split; [cbn; lia|].
    cbn. destruct a; [cbn in H1; lia | discriminate].
  - intros T N D s HN _ (fresh & all & In & Ea & Ne). cbn [ibea_island_driver i_step]. fold Q.
    destruct (ibi_step_ok Q N (mating N) D (if T =? 0 then N else N + mating N) fresh all s Vb Ht Hm He) as (s' & E & In' & Ne'); auto.
    { destruct (T =? 0); lia. }
    exists s'. split; [exact E|]. exists (fresh + mating N), (all + (N + mating N)). cbn [Nat.eqb]. split; [exact In'|]. split; [lia | exact Ne'].
  - intros T N d HT (fresh & all & (L & _) & _). cbn [ibea_island_driver i_inds room]. rewrite L. destruct T; [lia | reflexivity].
  - intros T N d (fresh & all & (_ & _ & _ & F & _) & _). exact F.
  - auto.
  - intros T N d l _ _ (fresh & all & (I1 & I2 & I3 & _ & In) & Ea & Ne) Hl Hn. cbn [ibea_island_driver i_inds i_set] in *.
    exists fresh, all. split; [|auto]. cbn [ibi_state]. split; [cbn; rewrite Hn; exact I1|]. split; [exact I2|]. split; [exact I3|]. split; [exact Hl | exact In].
  - intros i (B & _). exact B.
  - intros T N d HN _ (fresh & all & In & _). cbn [ibea_island_driver i_final]. fold Q.
    destruct (ibea_finish_ok Q Hm N (mating N) HN _ fresh all (ibi_state d) In) as (s' & out & E & _ & Lo & Bo); [destruct (T =? 0); lia|].
    rewrite E. eexists. exists out. split; [reflexivity|]. cbn [returned]. auto.
  - intros T N d (fresh & all & (_ & _ & _ & _ & _ & _ & C & _) & Ea & _). cbn [ibea_island_driver i_cost spent]. rewrite (C eq_refl). exact Ea.
Qed.
