(** C126: the precision of HGS's levels. *)
From Coq Require Import QArith Reals.
From Verif Require Import Spec Base DomModel VarModel NDSortModel NsgaModel NslsSpec NslsModel Nsga3Spec Nsga3Model
  SpeaSpec SpeaModel IbeaModel IbeaProofs SmsSpec SmsModel OmopsoSpec OmopsoModel JgblSpec JgblModel
  HgsModel HgsSpec HgsNsgaModel HgsDriversModel HgsDriversSpec HgsDriversContracts HgsDriversProps TrimRunModel TrimRunSpec TrimRunProofs TrimRunProps
  HgsPrecisionSpec HgsPrecisionProofs.
Local Open Scope nat_scope.

Lemma bits_ok k v : trim_genes k v = v <-> Forall (short k) v.
Proof. apply C119_hgs_trimming. Qed.
Lemma bits_round k : rounds_genes (trim_genes k).
Proof. apply C119_hgs_trimming. Qed.

(** C126 - the genes of everything a deme evaluates, holds and hands on have at most as many significant bits as its level's
    mantissa_bits say (the trimming function of ClassicHGS.py:243-245 at every level).  NSGA-II: *)
Theorem C126_nsgaii : forall (args : nat -> params * (nat -> nat)) bits, (forall lv, p_trim (fst (args lv)) = trim_genes (bits lv)) ->
  precise_in_hgs nsga_node args (fun d => evals (fst d)) bits.
Proof.
  intros args bits H. assert (HT : forall lv, rounds_genes (p_trim (fst (args lv)))) by (intros lv; rewrite H; apply bits_round).
  apply (precise _ _ _ _ (fun lv d => n_ok (fst (args lv)) (fst d))); [exact bits_ok|..].
  - intros lv d (_ & G). rewrite <- H. exact G.
  - intros lv x pop d E. cbn in E. apply some_inj in E. subst d. now apply init_ok.
  - intros lv x d d' G E. cbn [nsga_node n_step] in E. unfold nd_step in E. cbn [fst snd] in E. destruct (step _ _ _) as [s|] eqn:Es; [|discriminate]. apply some_inj in E. subst d'.
    exact (step_ok _ (HT lv) _ (with_archive (fst d) _) _ G Es).
  - intros lv x d d' pop G E. cbn [nsga_node n_final n_delegates] in *. unfold nd_final in E. cbn [fst snd] in E.
    destruct (first_front _ _) as [f|] eqn:Ef; [|discriminate]. destruct (finish _ _) as [(s & out)|] eqn:Es; [|discriminate]. apply some_inj in E. injection E as <- <-.
    destruct (finish_ok _ (with_archive (fst d) _) _ _ G Es) as (G' & ->). rewrite <- H. split; [exact G'|]. split; [apply tr_in, G'|].
    intros dels Ed. unfold nd_delegates in Ed. apply some_inj in Ed. subst dels. cbn. exact (first_front_ok _ (with_archive (fst d) _) _ G Ef).
Qed.
Print Assumptions C126_nsgaii.

(** JGBL: *)
Theorem C126_jgbl : forall b (args : nat -> params * (nat -> nat)) bits, (forall lv, p_trim (fst (args lv)) = trim_genes (bits lv)) ->
  precise_in_hgs (jgbl_node b) args (fun d => evals (fst d)) bits.
Proof.
  intros b args bits H. assert (HT : forall lv, rounds_genes (p_trim (fst (args lv)))) by (intros lv; rewrite H; apply bits_round).
  apply (precise _ _ _ _ (fun lv d => n_ok (fst (args lv)) (fst d))); [exact bits_ok|..].
  - intros lv d (_ & G). rewrite <- H. exact G.
  - intros lv x pop d E. cbn in E. apply some_inj in E. subst d. now apply init_ok.
  - intros lv ((x & J) & kn) d d' G E. cbn [jgbl_node n_step fst snd] in E. destruct (jstep _ _ _ _) as [s|] eqn:Es; [|discriminate]. apply some_inj in E. subst d'.
    cbn [fst snd]. destruct J as (J & (J1 & J2 & J3)). cbn [proj1_sig] in Es. eapply (jstep_trim _ (HT lv)); [| | |exact Es]; auto.
  - intros lv x d d' pop G E. cbn [jgbl_node n_final n_delegates] in *. unfold nd_final in E. cbn [fst snd] in E.
    destruct (first_front _ _) as [f|] eqn:Ef; [|discriminate]. destruct (finish _ _) as [(s & out)|] eqn:Es; [|discriminate]. apply some_inj in E. injection E as <- <-.
    destruct (finish_ok _ (with_archive (fst d) _) _ _ G Es) as (G' & ->). rewrite <- H. split; [exact G'|]. split; [apply tr_in, G'|].
    intros dels Ed. unfold nd_delegates in Ed. apply some_inj in Ed. subst dels. cbn. exact (first_front_ok _ (with_archive (fst d) _) _ G Ef).
Qed.
Print Assumptions C126_jgbl.

(** SPEA2: *)
Theorem C126_spea2 : forall (args : nat -> params) bits, (forall lv, p_trim (args lv) = trim_genes (bits lv)) ->
  precise_in_hgs spea_node args (fun d => spea_evals (snd d)) bits.
Proof.
  intros args bits H. assert (HT : forall lv, rounds_genes (p_trim (args lv))) by (intros lv; rewrite H; apply bits_round).
  apply (precise _ _ _ _ (fun lv d => spea_ok (args lv) (snd d))); [exact bits_ok|..].
  - intros lv d (_ & _ & G). rewrite <- H. exact G.
  - intros lv x pop d E. cbn [spea_node n_new] in E. apply some_inj in E. subst d. now apply spea_init_ok.
  - intros lv x d d' G E. cbn [spea_node n_step] in E. destruct (spea_step _ _ _ _ _) as [s|] eqn:Es; [|discriminate]. apply some_inj in E. subst d'. exact (spea_step_ok _ (HT lv) _ _ _ _ _ G Es).
  - intros lv x d d' pop G E. cbn [spea_node n_final n_delegates] in *. apply some_inj in E. injection E as <- <-. rewrite <- H. pose proof G as (_ & G2 & _).
    split; [exact G|]. split; [apply tr_in; exact G2|]. intros dels Ed. apply some_inj in Ed. subst dels. apply tr_in. exact G2.
Qed.
Print Assumptions C126_spea2.

(** IBEA: *)
Theorem C126_ibea : forall (args : nat -> ibea_params * (nat -> nat)) bits,
  (forall lv, p_trim (ip (fst (args lv))) = trim_genes (bits lv) /\ forall v, length (p_f (ip (fst (args lv))) v) = p_m (ip (fst (args lv)))) ->
  precise_in_hgs ibea_node args (fun s => map ib_v (ib_charged s)) bits.
Proof.
  intros args bits H. assert (HT : forall lv, rounds_genes (p_trim (ip (fst (args lv))))) by (intros lv; rewrite (proj1 (H lv)); apply bits_round).
  apply (precise _ _ _ _ (fun lv d => ib_ok (fst (args lv)) d)); [exact bits_ok|..].
  - intros lv d (_ & G). rewrite <- (proj1 (H lv)). apply tr_in. exact G.
  - intros lv x pop d E. cbn [ibea_node n_new] in E. apply some_inj in E. subst d. now apply ibea_init_ok.
  - intros lv x d d' G E. cbn [ibea_node n_step] in E. exact (ibea_op_ok _ (HT lv) _ (Step x) _ G E).
  - intros lv x d d' pop G E. cbn [ibea_node n_final n_delegates] in *. rewrite <- (proj1 (H lv)).
    assert (G' : ib_ok (fst (args lv)) d') by (apply (ibea_op_ok _ (HT lv) d Finalize); [exact G | cbn; now rewrite E]).
    assert (Ep : pop = map ib_v (ib_individuals d')).
    { unfold ibea_finish in E. cbv zeta in E. destruct (ibea_select _ _) as [(surv & fit)|]; [|discriminate]. injection E as <- <-. reflexivity. }
    split; [exact G'|]. split; [rewrite Ep; apply tr_in, G'|]. intros dels Ed. set (inds := ib_individuals d') in *.
    assert (Ne : inds <> []). { intros X. rewrite X in Ed. cbn in Ed. discriminate. }
    destruct (ibea_first_layer (p_f (ip (fst (args lv)))) (p_m (ip (fst (args lv)))) inds (proj2 (H lv)) Ne) as (layer & rest & El & Hl). rewrite El in Ed. apply some_inj in Ed. subst dels.
    apply tr_in. intros i Hi. apply (proj1 G'). now apply Hl.
Qed.
Print Assumptions C126_ibea.

(** SMS-EMOA: *)
Theorem C126_smsemoa : forall (args : nat -> sms_args) bits, (forall lv, p_trim (sa_params (args lv)) = trim_genes (bits lv)) ->
  precise_in_hgs sms_node args (fun d => sms_evals (snd d)) bits.
Proof.
  intros args bits H. assert (HT : forall lv, rounds_genes (p_trim (sa_params (args lv)))) by (intros lv; rewrite H; apply bits_round).
  apply (precise _ _ _ _ (fun lv d => sms_ok (sa_params (args lv)) (snd d))); [exact bits_ok|..].
  - intros lv d (_ & G). rewrite <- H. exact G.
  - intros lv x pop d E. cbn [sms_node n_new] in E. apply some_inj in E. subst d. now apply sms_init_ok.
  - intros lv x d d' G E. cbn [sms_node n_step] in E. destruct (sms_step _ _ _ _ _ _ _) as [s|] eqn:Es; [|discriminate]. apply some_inj in E. subst d'.
    unfold sms_step in Es. exact (sms_generations_ok _ (HT lv) _ _ _ _ _ _ G Es).
  - intros lv x d d' pop G E. cbn [sms_node n_final n_delegates] in *. apply some_inj in E. injection E as <- <-. rewrite <- H. pose proof G as (G1 & _).
    split; [exact G|]. split; [apply tr_in; exact G1|]. intros dels Ed. destruct (smsemoa_nd_sort _ _ _) as [[|f fs]|]; try discriminate; apply some_inj in Ed; subst dels; [intros v []|].
    apply tr_in. intros i _. apply (nth_or (fun m => tr_ok _ (m_value m))); [exact (tr_nil _ (HT lv)) | exact G1].
Qed.
Print Assumptions C126_smsemoa.

(** OMOPSO: *)
Theorem C126_omopso : forall (args : nat -> params * (Z * Z)) bits, (forall lv, p_trim (fst (args lv)) = trim_genes (bits lv)) ->
  precise_in_hgs omopso_node args om_evals bits.
Proof.
  intros args bits H. assert (HT : forall lv, rounds_genes (p_trim (fst (args lv)))) by (intros lv; rewrite H; apply bits_round).
  apply (precise _ _ _ _ (fun lv d => om_ok (fst (args lv)) d)); [exact bits_ok|..].
  - intros lv d (_ & _ & _ & G). rewrite <- H. exact G.
  - intros lv x pop d E. cbn [omopso_node n_new] in E. exact (om_init_ok _ (HT lv) _ _ _ _ _ E).
  - intros lv x d d' G E. cbn [omopso_node n_step] in E. exact (om_step_ok _ (HT lv) _ _ _ _ _ _ G E).
  - intros lv x d d' pop G E. cbn [omopso_node n_final n_delegates] in *. apply some_inj in E. injection E as <- <-. rewrite <- H. pose proof G as (G1 & _ & G3 & _).
    split; [exact G|]. split; [apply tr_in; exact G3|]. intros dels Ed. apply some_inj in Ed. subst dels. apply tr_in. exact G1.
Qed.
Print Assumptions C126_omopso.

(** NSGA-III: *)
Theorem C126_nsgaiii : forall (args : nat -> params * R) bits, (forall lv, p_trim (fst (args lv)) = trim_genes (bits lv)) ->
  precise_in_hgs n3_node args (fun d => snd (n3_context (fst d))) bits.
Proof.
  intros args bits H. assert (HT : forall lv, rounds_genes (p_trim (fst (args lv)))) by (intros lv; rewrite H; apply bits_round).
  apply (precise _ _ _ _ (fun lv d => n3_ok (fst (args lv)) (fst d) /\ forall f, snd d = Some f -> all_trimmed (p_trim (fst (args lv))) f)); [exact bits_ok|..].
  - intros lv d ((_ & G) & _). rewrite <- H. exact G.
  - intros lv x pop d E. cbn [n3_node n_new] in E. destruct (n3_init _ _ _ _) as [s|] eqn:Es; [|discriminate]. apply some_inj in E. subst d. cbn.
    split; [exact (n3_init_ok _ (HT lv) _ _ _ _ Es) | discriminate].
  - intros lv x d d' (G & _) E. cbn [n3_node n_step] in E. cbv zeta in E. destruct (n3_front _ _ _ _) as [f|] eqn:Ef; [|discriminate].
    destruct (n3_step _ _ _ _ _) as [s| |] eqn:Es; try discriminate. apply some_inj in E. subst d'. cbn [fst snd].
    assert (G' : n3_ok (fst (args lv)) (n3_with_archive (fst d) (shared (fst (args lv)) (nn_known (proj1_sig x))))) by exact G.
    split; [exact (n3_step_ok _ (HT lv) _ _ _ _ _ G' Es)|]. intros f' X. apply some_inj in X. subst f'. exact (n3_front_ok _ (HT lv) _ _ _ _ G' Ef).
  - intros lv x d d' pop G E. cbn [n3_node n_final n_delegates] in *. apply some_inj in E. injection E as <- <-. rewrite <- H. pose proof G as ((G1 & _) & G2).
    split; [exact G|]. split; [apply tr_in; exact G1 | exact G2].
Qed.
Print Assumptions C126_nsgaiii.

(** NSLS: *)
Theorem C126_nsls : forall (args : nat -> params) bits, (forall lv, p_trim (args lv) = trim_genes (bits lv)) ->
  precise_in_hgs nsls_node args (fun d => snd (nl_context (fst d))) bits.
Proof.
  intros args bits H. assert (HT : forall lv, rounds_genes (p_trim (args lv))) by (intros lv; rewrite H; apply bits_round).
  apply (precise _ _ _ _ (fun lv d => nsls_ok (args lv) (fst d) /\ forall f, snd d = Some f -> all_trimmed (p_trim (args lv)) f)); [exact bits_ok|..].
  - intros lv d ((_ & G) & _). rewrite <- H. exact G.
  - intros lv x pop d E. cbn [nsls_node n_new] in E. apply some_inj in E. subst d. cbn [fst snd]. split; [now apply nsls_init_ok | discriminate].
  - intros lv x d d' (G & _) E. cbn [nsls_node n_step] in E. cbv zeta in E. destruct (nl_front _ _ _) as [f|] eqn:Ef; [|discriminate].
    destruct (nsls_step _ _ _ _ _) as [s| |] eqn:Es; try discriminate. apply some_inj in E. subst d'. cbn [fst snd].
    assert (G' : nsls_ok (args lv) (nl_with_archive (fst d) (shared (args lv) (nl_known (proj1_sig x))))) by exact G.
    split; [exact (nsls_step_ok _ (HT lv) _ _ _ _ _ G' Es)|]. intros f' X. apply some_inj in X. subst f'. exact (nl_front_ok _ (HT lv) _ _ _ G' Ef).
  - intros lv x d d' pop G E. cbn [nsls_node n_final n_delegates] in *. apply some_inj in E. injection E as <- <-. rewrite <- H. pose proof G as ((G1 & _) & G2).
    split; [exact G|]. split; [apply tr_in; exact G1 | exact G2].
Qed.
Print Assumptions C126_nsls.

(** The run of NSGA-II of C123 with two significant bits at the root and three below: the
    root stays at 8, whose demes find 10. *)
Definition hp_problem (k : nat) : params :=
  let P := hd_problem hd_tradeoff 2 in
  {| p_dims := p_dims P; p_f := p_f P; p_m := p_m P; p_trim := trim_genes k; p_crossover_rate := p_crossover_rate P; p_mutation_rate := p_mutation_rate P;
     p_raw := p_raw P; p_raw_a := p_raw_a P; p_raw_b := p_raw_b P; p_half := p_half P; p_epsilon := p_epsilon P; p_eps := p_eps P; p_iter := p_iter P |}.
Definition hp_bits (lv : nat) : nat := match lv with 0 => 2 | _ => 3 end.
Definition hp_args (lv : nat) : params * (nat -> nat) := (hp_problem (hp_bits lv), snd (hd_nsga_args lv)).
Example C126_example : (forall lv, p_trim (fst (hp_args lv)) = trim_genes (hp_bits lv)) /\
  ran (do s0 <- start_hgs nsga_node hp_args hd_cfg (fun _ => 0) hd_nsga_draws hd_ratios [[1]; [2]]%Z;
       run_hgs nsga_node hp_args hd_hv hd_raw (1#1000) hd_cfg (repeat (hd_draws hd_nsga_draws) 5) s0) =
  [(0%nat, [[1]; [8]], [[1]; [8]; [8]; [8]]); (1%nat, [[1]; [6]], [[1]; [4]; [6]; [6]]); (1%nat, [[8]; [10]], [[8]; [10]; [10]; [10]]); (1%nat, [], [])]%Z.
Proof. split; [reflexivity|]. vm_compute. reflexivity. Qed.
