(** C123, C124: HGS over each of the drivers its nodes can be configured with. *)
From Coq Require Import QArith Reals.
From Verif Require Import Spec Base DomModel DomProofs VarModel NDSortModel NsgaModel HgsModel HgsSpec HgsProofs HgsFacts HgsNsgaModel HgsTotal
  SpeaSpec SpeaModel SpeaProps IbeaModel SmsSpec SmsModel JgblSpec JgblModel OmopsoSpec OmopsoModel Nsga3Spec Nsga3Model NslsSpec NslsModel NslsProps
  HgsDriversModel HgsDriversSpec HgsDriversProofs HgsDriversContracts HgsDelegatesProofs.
Local Open Scope nat_scope.

(** C123 - whichever of these drivers the nodes run, on whatever each level hands to them, no run of HGS raises and everything it
    finds is within the bounds.  NSGA-II, ... *)
Theorem C123_nsgaii : forall b (args : nat -> params * (nat -> nat)),
  valid_box b -> (forall lv, fair_problem b (fst (args lv)) /\ (0 < p_eps (fst (args lv)))%Q) -> safe_in_hgs nsga_node args b (fun _ => True).
Proof.
  intros b args Vb H. apply (safe nsga_node args b 0 pop_good (fun _ _ => True)).
  - intros lv. destruct (H lv). now apply nsga_node_contract.
  - intros C _ size _. lia.
  - intros C _. left. auto.
Qed.

(** ... JGBL, ... *)
Theorem C123_jgbl : forall b (args : nat -> params * (nat -> nat)),
  valid_box b -> (forall lv, fair_problem b (fst (args lv)) /\ (0 < p_eps (fst (args lv)))%Q) -> safe_in_hgs (jgbl_node b) args b (fun _ => True).
Proof.
  intros b args Vb H. apply (safe (jgbl_node b) args b 0 pop_good (fun _ _ => True)).
  - intros lv. destruct (H lv). now apply jgbl_node_contract.
  - intros C _ size _. lia.
  - intros C _. left. auto.
Qed.

(** ... IBEA, ... *)
Theorem C123_ibea : forall b (args : nat -> ibea_params * (nat -> nat)),
  valid_box b -> (forall lv, fair_problem b (ip (fst (args lv))) /\ 1 <= p_m (ip (fst (args lv)))) -> safe_in_hgs ibea_node args b (fun _ => True).
Proof.
  intros b args Vb H. apply (safe ibea_node args b 0 ibea_good (fun _ _ => True)).
  - intros lv. destruct (H lv). now apply ibea_contract.
  - intros C _ size _. lia.
  - intros C _. left. auto.
Qed.

(** ... OMOPSO, ... *)
Theorem C123_omopso : forall b (args : nat -> params * (Z * Z)),
  valid_box b -> (forall lv, fair_problem b (fst (args lv)) /\ 1 <= p_m (fst (args lv))) -> safe_in_hgs omopso_node args b (fun _ => True).
Proof.
  intros b args Vb H. apply (safe omopso_node args b 0 om_node_good (fun _ _ => True)).
  - intros lv. destruct (H lv). now apply omopso_contract.
  - intros C _ size _. lia.
  - intros C _. left. auto.
Qed.

(** ... SPEA2, with at least two individuals at every level, ... *)
Theorem C123_spea2 : forall b (args : nat -> params),
  valid_box b -> (forall lv, fair_problem b (args lv)) -> safe_in_hgs spea_node args b (big_enough 2).
Proof.
  intros b args Vb H. apply (safe spea_node args b 2 spea_good (fun _ _ => True)).
  - intros lv. now apply spea_contract.
  - auto.
  - intros C _. left. auto.
Qed.

(** ... SMS-EMOA, also with two, up to three objectives and a reference point to match, ... *)
Theorem C123_smsemoa : forall b (args : nat -> sms_args),
  valid_box b ->
  (forall lv, fair_problem b (sa_params (args lv)) /\ 1 <= length (sa_ref (args lv)) <= 3 /\ p_m (sa_params (args lv)) = length (sa_ref (args lv)) /\
     (length (sa_ref (args lv)) = 3 -> forall v, Forall2 (fun x r => (sa_neg (args lv) <= x - r)%Z) (p_f (sa_params (args lv)) v) (sa_ref (args lv)))) ->
  safe_in_hgs sms_node args b (big_enough 2).
Proof.
  intros b args Vb H. apply (safe sms_node args b 2 sms_good (fun _ _ => True)).
  - intros lv. apply sms_contract; [exact Vb | exact (H lv)].
  - auto.
  - intros C _. left. auto.
Qed.

(** ... and NSGA-III, with two and metaepochs of at least one step (its front[1] does not exist before the first one). *)
Theorem C123_nsgaiii : forall b (args : nat -> params * R),
  valid_box b ->
  (forall lv, fair_problem b (fst (args lv)) /\ 1 <= p_m (fst (args lv)) /\ (0 < p_epsilon (fst (args lv)))%Z /\
     forall v, p_trim (fst (args lv)) (p_trim (fst (args lv)) v) = p_trim (fst (args lv)) v) ->
  safe_in_hgs n3_node args b (fun C => big_enough 2 C /\ makes_steps C).
Proof.
  intros b args Vb H. apply (safe n3_node args b 2 n3_node_good n3_node_ready).
  - intros lv. destruct (H lv) as (H1 & H2 & H3 & H4). now apply n3_contract.
  - now intros C (X & _).
  - intros C (_ & X). now right.
Qed.

(** NSLS: what a run that ends has found is within the bounds.  What is missing is that it ends. *)
Theorem C123_nsls_partial : forall b (args : nat -> params),
  (forall lv, fair_problem b (args lv) /\ 1 <= p_m (args lv) /\ forall k v, in_box_except k b v -> in_box_except k b (p_trim (args lv) v)) ->
  sound_in_hgs nsls_node args b (fun _ => True).
Proof.
  intros b args H. apply (sound_runs nsls_node args b nl_node_good). intros lv. destruct (H lv) as (H1 & H2 & H3). now apply nsls_partial.
Qed.

(** ---- The example problem: f(x) = (x, 4 - x) within 0..10 and a population of two. ---- *)
Definition hd_problem (f : vec -> vec) (m : nat) : params :=
  {| p_dims := [(0, 10)]%Z; p_f := f; p_m := m; p_trim := fun v => v; p_crossover_rate := 5; p_mutation_rate := 5;
     p_raw := fun lb ub y r => (y + r)%Z; p_raw_a := fun lb ub y1 y2 r => (y1 - r)%Z; p_raw_b := fun lb ub y1 y2 r => (y2 + r)%Z;
     p_half := 5; p_epsilon := 1; p_eps := 1 # 1000; p_iter := fun _ l => l |}.
Definition hd_tradeoff (v : vec) : vec := [nth 0 v 0; 4 - nth 0 v 0]%Z.
Definition hd_identity (v : vec) : vec := [nth 0 v 0]%Z.
Definition hd_two_best (v : vec) : vec := [Z.min (Z.abs (nth 0 v 0 - 1)) (Z.abs (nth 0 v 0 - 5))]%Z.
Definition hd_box : box := [(0, 10)]%Z.
Definition hd_cfg : config :=
  {| dims := hd_box; cost_modifiers := [1; 1#2; 1#4]%Q; min_dists := [1; 1; 1]%Q; metaepoch_lens := [1; 1; 1]; max_level := 2;
     max_sprouts_no := 3; sproutiveness := 2; population_sizes := [2; 2; 2]; mutation_rates := [5; 5; 5]%Z |}.
Definition hd_draws {draw} (x : draw) : HgsModel.step_draws draw :=
  {| in_metaepoch := fun _ _ => x; in_finish := fun _ => x; in_shuffle := fun _ k => k; in_constructor := fun _ => x;
     in_mutation := fun _ k => ((fun _ => 0%Z), (fun _ => 3%Z)) |}.
Definition hd_ratios : list Q := [1#10; 1#10; 1#10]%Q.
Definition hd_hv (p : list vec) : Q := inject_Z (fold_right Z.add 0%Z (concat p)).
Definition hd_raw (_ _ y r : Z) : Z := (y + r)%Z.

Lemma hd_fair f m : (forall v, length (f v) = m) -> fair_problem hd_box (hd_problem f m).
Proof. intros H. split; [reflexivity|]. split; [auto|]. split; [exact H|]. split; [cbn; lia|]. reflexivity. Qed.
Lemma hd_valid : valid_box hd_box.
Proof. repeat constructor; simpl; lia. Qed.
Lemma hd_proper a c : (0 <= a <= 10)%Z -> (0 <= c <= 10)%Z -> proper_call hd_box hd_cfg hd_ratios [[a]; [c]].
Proof.
  intros Ha Hc. split; [unfold sound_config; cbn; repeat split; try lia; repeat constructor; simpl; lia|]. split; [reflexivity|].
  split; [cbn; lia|]. split; [repeat constructor; simpl; lia|]. intros size [= <-]. cbn. lia.
Qed.
Lemma hd_enough : big_enough 2 hd_cfg /\ makes_steps hd_cfg.
Proof. split; [intros size|intros len]; cbn; intuition (subst; cbn; lia). Qed.

(** Randomness for them. *)
Definition hd_step_draws : NsgaModel.step_draws :=
  {| choice := fun k => k; coin := fun _ => true; cx_r0 := fun _ => 0%Z; cx_pick := fun _ => true;
     cx_skip := fun _ _ => 0%Z; cx_rand := fun _ _ => 1%Z; cx_swap := fun _ _ => 0%Z;
     mu_sel := fun i j => Z.of_nat (j * 9); mu_rnd := fun _ _ => 2%Z |}.
Definition hd_nsga_draws : NsgaModel.step_draws * list vec := (hd_step_draws, [[3]]%Z).
Definition hd_sms_draws : { D : nat -> nat -> sms_draws | forall n i, 2 <= n -> good_sample n (D n i) }.
Proof.
  exists (fun _ _ => {| sample2 := (0, 1); g_r0 := 1%Z; g_pick := true; g_skip := fun _ => 0%Z; g_rand := fun _ => 1%Z; g_swap := fun _ => 0%Z;
                        g_sel := fun _ => 1%Z; g_rnd := fun _ => 1%Z |}).
  intros n i Hn. unfold good_sample. cbn. lia.
Defined.
Definition hd_om_draws : { D : nat -> om_draws | forall n k, 1 < n -> fst (om_pick (D n) k) < n /\ snd (om_pick (D n) k) < n }.
Proof. exists (fun _ => {| om_pick := fun _ => (0, 1); om_speed := fun k _ _ _ _ _ => if k =? 0 then 1%Z else 0%Z |}). intros n k Hn. cbn. lia. Defined.
Definition hd_spea_draws : { D : nat -> spea_draws | forall n, 2 <= n -> good_draws n (D n) }.
Proof.
  exists (fun _ => {| t1 := fun _ => (0, 1); t2 := fun _ => (0, 1); s_r0 := fun _ => 1%Z; s_pick := fun _ => true; s_skip := fun _ _ => 0%Z;
                      s_rand := fun _ _ => 1%Z; s_swap := fun _ _ => 0%Z; s_sel := fun _ _ => 9%Z; s_rnd := fun _ _ => 1%Z |}).
  intros n Hn i Hi. cbn. lia.
Defined.
Definition hd_nsls_draws : { x : nl_node_draws | nl_node_draws_ok x }.
Proof.
  exists {| nl_search := fun _ => {| ls_sample := fun _ _ => (0, 1); ls_scaled := fun _ _ d => (d / 4)%Z; ls_coin := fun _ _ => true |}; nl_sample := @firstn nat; nl_known := [] |}. split; [|exact firstn_is_sample].
  intros n i k Hn. cbn. lia.
Defined.

Definition ran {drv} (o : HgsModel.outcome (hgs (nat * drv))) : list (nat * list vec * list vec) :=
  match o with Ok s => map (fun n => (level n, population n, delegates n)) (nodes s) | _ => [] end.


Lemma ran_at {drv} (o : HgsModel.outcome (hgs (nat * drv))) l i lv p d : ran o = l -> nth_error l i = Some (lv, p, d) ->
  exists s n, o = Ok s /\ nth_error (nodes s) i = Some n /\ population n = p /\ delegates n = d.
Proof.
  intros <- E. destruct o as [s| |]; cbn [ran] in E; [|destruct i; discriminate | destruct i; discriminate].
  rewrite nth_error_map in E. destruct (nth_error (nodes s) i) as [n|] eqn:En; [|discriminate]. cbn [option_map] in E. exists s, n. split; [reflexivity|].
  split; [exact En|]. split; congruence.
Qed.
Lemma do_ok {A B} (a : HgsModel.outcome A) (k : A -> HgsModel.outcome B) r : (do x <- a; k x) = Ok r -> exists x, a = Ok x /\ k x = Ok r.
Proof. destruct a as [x| |]; cbn [bind]; [eauto | discriminate | discriminate]. Qed.

(** Six metaepochs of NSGA-II from [1] and [2]: the root ripens in the fifth and sprouts. *)
Definition hd_nsga_args : nat -> params * (nat -> nat) := fun _ => (hd_problem hd_tradeoff 2, fun n => n).
Notation hd_nsga_run := (
  do s0 <- start_hgs nsga_node hd_nsga_args hd_cfg (fun _ => 0) hd_nsga_draws hd_ratios [[1]; [2]]%Z;
  run_hgs nsga_node hd_nsga_args hd_hv hd_raw (1#1000) hd_cfg (repeat (hd_draws hd_nsga_draws) 6) s0).
Example C123_example_nsgaii :
  proper_call hd_box hd_cfg hd_ratios [[1]; [2]]%Z /\ (forall lv, fair_problem hd_box (fst (hd_nsga_args lv)) /\ (0 < p_eps (fst (hd_nsga_args lv)))%Q) /\
  ran hd_nsga_run = [(0%nat, [[1]; [10]], [[1]; [10]; [10]; [10]]); (1%nat, [[1]; [6]], [[1]; [4]; [6]; [6]]); (1%nat, [[10]; [10]], [[10]; [10]; [10]; [10]]); (1%nat, [], [])]%Z.
Proof. split; [apply hd_proper; lia|]. split; [intros lv; split; [now apply hd_fair | reflexivity]|]. vm_compute. reflexivity. Qed.

Definition hd_sms_args : sms_args := {| sa_params := hd_problem hd_tradeoff 2; sa_neg := (-1000)%Z; sa_ref := [11; 11]%Z; sa_epoch := fun n => 1 |}.
Example C123_example_smsemoa :
  big_enough 2 hd_cfg /\ sms_setting hd_box hd_sms_args /\
  ran (do s0 <- start_hgs sms_node (fun _ => hd_sms_args) hd_cfg (fun _ => 0) hd_sms_draws hd_ratios [[1]; [8]]%Z;
       run_hgs sms_node (fun _ => hd_sms_args) hd_hv hd_raw (1#1000) hd_cfg [hd_draws hd_sms_draws; hd_draws hd_sms_draws] s0) = [(0%nat, [[8]; [1]], [[8]; [1]])]%Z.
Proof.
  split; [apply hd_enough|]. split; [|vm_compute; reflexivity]. split; [now apply hd_fair|]. split; [cbn; lia|]. split; [reflexivity|]. cbn. lia.
Qed.

Definition hd_om_args : nat -> params * (Z * Z) := fun _ => (hd_problem hd_identity 1, (75, 10000)%Z).
Notation hd_om_run := (
  do s0 <- start_hgs omopso_node hd_om_args hd_cfg (fun _ => 0) hd_om_draws hd_ratios [[0]; [1]]%Z;
  run_hgs omopso_node hd_om_args hd_hv hd_raw (1#1000) hd_cfg [hd_draws hd_om_draws; hd_draws hd_om_draws; hd_draws hd_om_draws] s0).
Example C123_example_omopso :
  (forall lv, fair_problem hd_box (fst (hd_om_args lv)) /\ 1 <= p_m (fst (hd_om_args lv))) /\ ran hd_om_run = [(0%nat, [[0]], [[3]; [1]])]%Z.
Proof. split; [intros lv; split; [now apply hd_fair | cbn; lia]|]. vm_compute. reflexivity. Qed.

(** The hypotheses of the others; their runs compute with reals. *)
Definition hd_ibea_args : nat -> ibea_params * (nat -> nat) := fun _ => ({| ip := hd_problem hd_tradeoff 2; ip_eps := 1; ip_kappa := 1; ip_fa := None |}, fun n => n).
Definition hd_n3_args : nat -> params * R := fun _ => (hd_problem hd_tradeoff 2, 5%R).
Example C123_example_others :
  valid_box hd_box /\ (big_enough 2 hd_cfg /\ makes_steps hd_cfg) /\ fair_problem hd_box (hd_problem hd_tradeoff 2) /\
  (forall lv, fair_problem hd_box (ip (fst (hd_ibea_args lv))) /\ 1 <= p_m (ip (fst (hd_ibea_args lv)))) /\
  (forall lv, fair_problem hd_box (fst (hd_n3_args lv)) /\ 1 <= p_m (fst (hd_n3_args lv)) /\ (0 < p_epsilon (fst (hd_n3_args lv)))%Z /\
     forall v, p_trim (fst (hd_n3_args lv)) (p_trim (fst (hd_n3_args lv)) v) = p_trim (fst (hd_n3_args lv)) v).
Proof.
  split; [exact hd_valid|]. split; [exact hd_enough|]. split; [now apply hd_fair|]. split; intros lv; (split; [now apply hd_fair|]); [cbn; lia|].
  cbn. split; [lia|]. split; [lia | reflexivity].
Qed.

(** C123 - NSLS can hang in a metaepoch: both individuals are optimal, every move of the local search makes them worse, and
    next_generation loops for ever (C38). *)
Theorem C123_nsls_refuted : exists b (args : nat -> params),
  valid_box b /\ (forall lv, fair_problem b (args lv) /\ 1 <= p_m (args lv) /\ forall v, p_trim (args lv) v = v) /\
  ~ safe_in_hgs nsls_node args b (fun C => big_enough 2 C /\ makes_steps C).
Proof.
  exists hd_box, (fun _ => hd_problem hd_two_best 1). split; [exact hd_valid|]. split; [intros lv; split; [now apply hd_fair|]; split; [cbn; lia | reflexivity]|].
  intros H. destruct (H hd_hv hd_raw (1#1000) hd_cfg (fun _ => 0) hd_nsls_draws hd_ratios [[1]; [5]]%Z [hd_draws hd_nsls_draws]
    ltac:(apply hd_proper; lia) hd_enough) as (s0 & s & E0 & E & _).
  assert (X : (do s0 <- start_hgs nsls_node (fun _ => hd_problem hd_two_best 1) hd_cfg (fun _ => 0) hd_nsls_draws hd_ratios [[1]; [5]]%Z;
               run_hgs nsls_node (fun _ => hd_problem hd_two_best 1) hd_hv hd_raw (1#1000) hd_cfg [hd_draws hd_nsls_draws] s0) = Raises) by (vm_compute; reflexivity).
  rewrite E0 in X. cbn [bind] in X. rewrite E in X. discriminate.
Qed.

(** C124 - the delegates a node nominates, from which its sprouts grow, are the best it knows: no member of its population is
    better than a delegate, and the delegates are members.  IBEA: *)
Theorem C124_ibea : forall b (args : nat -> ibea_params * (nat -> nat)) f,
  valid_box b -> (forall lv, fair_problem b (ip (fst (args lv))) /\ 1 <= p_m (ip (fst (args lv))) /\ p_f (ip (fst (args lv))) = f) ->
  always_in_hgs ibea_node args b (fun _ => True) (fun population delegates => members population delegates /\ unbeaten f population delegates).
Proof.
  intros b args f Vb H. apply (always ibea_node args b 0 ibea_good (fun _ _ => True)).
  - intros lv. destruct (H lv) as (H1 & H2 & _). now apply ibea_contract.
  - intros C _ size _. lia.
  - intros C _. left. auto.
  - split; [intros x [] | apply unbeaten_nil].
  - intros l d d' (H1 & H2) Pe. split; [eapply members_perm; eauto | eapply unbeaten_perm; eauto].
  - intros lv x d d' pop dels _ E Ed. destruct (H lv) as ((_ & _ & Hf & _) & _ & <-). eapply ibea_unbeaten; eauto.
Qed.

(** SMS-EMOA: *)
Theorem C124_smsemoa : forall b (args : nat -> sms_args) f,
  valid_box b ->
  (forall lv, fair_problem b (sa_params (args lv)) /\ 1 <= length (sa_ref (args lv)) <= 3 /\ p_m (sa_params (args lv)) = length (sa_ref (args lv)) /\
     (length (sa_ref (args lv)) = 3 -> forall v, Forall2 (fun x r => (sa_neg (args lv) <= x - r)%Z) (p_f (sa_params (args lv)) v) (sa_ref (args lv)))) ->
  (forall lv, p_f (sa_params (args lv)) = f) ->
  always_in_hgs sms_node args b (big_enough 2) (fun population delegates => members population delegates /\ unbeaten f population delegates).
Proof.
  intros b args f Vb H Ef. apply (always sms_node args b 2 sms_good (fun _ _ => True)).
  - intros lv. apply sms_contract; [exact Vb | exact (H lv)].
  - auto.
  - intros C _. left. auto.
  - split; [intros x [] | apply unbeaten_nil].
  - intros l d d' (H1 & H2) Pe. split; [eapply members_perm; eauto | eapply unbeaten_perm; eauto].
  - intros lv x d d' pop dels G E Ed. rewrite <- (Ef lv). eapply sms_unbeaten; eauto. exact (H lv).
Qed.

(** NSGA-II and JGBL: no member is better than a delegate, ... *)
Theorem C124_nsgaii_unbeaten : forall b (args : nat -> params * (nat -> nat)) f,
  valid_box b -> (forall lv, fair_problem b (fst (args lv)) /\ (0 < p_eps (fst (args lv)))%Q /\ p_f (fst (args lv)) = f) ->
  always_in_hgs nsga_node args b (fun _ => True) (unbeaten f).
Proof.
  intros b args f Vb H. apply (always nsga_node args b 0 pop_good (fun _ _ => True)).
  - intros lv. destruct (H lv) as (H1 & H2 & _). now apply nsga_node_contract.
  - intros C _ size _. lia.
  - intros C _. left. auto.
  - apply unbeaten_nil.
  - intros l d d' X Pe. eapply unbeaten_perm; eauto.
  - intros lv x d d' pop dels G E Ed. destruct (H lv) as ((_ & _ & Hf & _ & Hi) & _ & <-). eapply nsga_unbeaten; [exact Hf | exact Hi | | exact E | exact Ed].
    apply with_archive_good. exact G.
Qed.
Theorem C124_jgbl_unbeaten : forall b (args : nat -> params * (nat -> nat)) f,
  valid_box b -> (forall lv, fair_problem b (fst (args lv)) /\ (0 < p_eps (fst (args lv)))%Q /\ p_f (fst (args lv)) = f) ->
  always_in_hgs (jgbl_node b) args b (fun _ => True) (unbeaten f).
Proof.
  intros b args f Vb H. apply (always (jgbl_node b) args b 0 pop_good (fun _ _ => True)).
  - intros lv. destruct (H lv) as (H1 & H2 & _). now apply jgbl_node_contract.
  - intros C _ size _. lia.
  - intros C _. left. auto.
  - apply unbeaten_nil.
  - intros l d d' X Pe. eapply unbeaten_perm; eauto.
  - intros lv x d d' pop dels G E Ed. destruct (H lv) as ((_ & _ & Hf & _ & Hi) & _ & <-). eapply nsga_unbeaten; [exact Hf | exact Hi | | exact E | exact Ed].
    apply with_archive_good. exact G.
Qed.

(** The run of SMS-EMOA above ends with a node of two members that are both delegates; the hypotheses on its objectives hold. *)
Example C124_example_smsemoa :
  p_f (sa_params hd_sms_args) = hd_tradeoff /\ members [[8]; [1]]%Z [[8]; [1]]%Z /\ unbeaten hd_tradeoff [[8]; [1]]%Z [[8]; [1]]%Z.
Proof.
  split; [reflexivity|]. split; [apply incl_refl|]. intros d v Hd Hv (L & i & x & y & Ex & Ey & Hxy). cbn in Hd, Hv.
  destruct Hd as [<-|[<-|[]]], Hv as [<-|[<-|[]]]; cbn in L, Ex, Ey; inversion L as [|? ? ? ? L1 L2]; subst;
    try (inversion L2; subst; lia); destruct i as [|[|i]]; cbn in Ex, Ey; try discriminate;
    try (injection Ex as <-; injection Ey as <-; lia); destruct i; discriminate.
Qed.

(** ... but a delegate need not be a member: the front is that of parents and offspring together, and can be larger than the
    population that is kept.  In the run above, [4] is a delegate of the second node. *)
Theorem C124_nsgaii_members_refuted : exists b (args : nat -> params * (nat -> nat)),
  valid_box b /\ (forall lv, fair_problem b (fst (args lv)) /\ (0 < p_eps (fst (args lv)))%Q) /\
  ~ always_in_hgs nsga_node args b (fun _ => True) members.
Proof.
  exists hd_box, hd_nsga_args. split; [exact hd_valid|]. split; [intros lv; split; [now apply hd_fair | reflexivity]|]. intros H.
  destruct C123_example_nsgaii as (Pc & _ & Er). destruct (ran_at _ _ 1 _ _ _ Er eq_refl) as (s & n & Es & En & Ep & Ed). clear Er.
  destruct (do_ok _ _ _ Es) as (s0 & E0 & E).
  pose proof (H _ _ _ _ _ _ _ _ _ _ _ Pc Logic.I E0 E 1 n En) as M. unfold members in M. rewrite Ep, Ed in M. clear - M.
  specialize (M [4]%Z). cbn in M. destruct M as [M|[M|[]]]; [auto | discriminate | discriminate].
Qed.

(** OMOPSO nominates its whole swarm: [3] is a delegate although [0] is known, and it is no member. *)
Theorem C124_omopso_refuted : exists b (args : nat -> params * (Z * Z)) f,
  valid_box b /\ (forall lv, fair_problem b (fst (args lv)) /\ 1 <= p_m (fst (args lv)) /\ p_f (fst (args lv)) = f) /\
  ~ always_in_hgs omopso_node args b (fun _ => True) members /\ ~ always_in_hgs omopso_node args b (fun _ => True) (unbeaten f).
Proof.
  exists hd_box, hd_om_args, hd_identity. split; [exact hd_valid|]. split; [intros lv; split; [now apply hd_fair | split; [cbn; lia | reflexivity]]|].
  assert (Pc : proper_call hd_box hd_cfg hd_ratios [[0]; [1]]%Z) by (apply hd_proper; lia).
  destruct C123_example_omopso as (_ & Er). destruct (ran_at _ _ 0 _ _ _ Er eq_refl) as (s & n & Es & En & Ep & Ed). clear Er.
  destruct (do_ok _ _ _ Es) as (s0 & E0 & E).
  split; intros H; pose proof (H _ _ _ _ _ _ _ _ _ _ _ Pc Logic.I E0 E 0 n En) as M; unfold members, unbeaten in M; rewrite Ep, Ed in M.
  - specialize (M [3]%Z). cbn in M. destruct M as [M|[]]; [auto | discriminate].
  - apply (M [3] [0])%Z; [now left | now left|]. split; [repeat constructor; cbn; lia|]. exists 0, 0%Z, 3%Z. cbn. repeat split; lia.
Qed.

(** SPEA2 nominates its archive, which is also its population; with room to spare the archive takes dominated vectors too. *)
Theorem C124_spea2_members : forall b (args : nat -> params),
  valid_box b -> (forall lv, fair_problem b (args lv)) -> always_in_hgs spea_node args b (big_enough 2) members.
Proof.
  intros b args Vb H. apply (always spea_node args b 2 spea_good (fun _ _ => True)).
  - intros lv. now apply spea_contract.
  - auto.
  - intros C _. left. auto.
  - intros x [].
  - intros l d d' X Pe. eapply members_perm; eauto.
  - intros lv x d d' pop dels _ E Ed. cbn [spea_node n_final n_delegates] in E, Ed. injection E as <- <-. apply some_inj in Ed. subst dels. intros v Hv. exact Hv.
Qed.
Theorem C124_spea2_refuted : exists b (args : nat -> params) f,
  valid_box b /\ (forall lv, fair_problem b (args lv) /\ p_f (args lv) = f) /\ ~ always_in_hgs spea_node args b (big_enough 2) (unbeaten f).
Proof.
  set (P := hd_problem hd_identity 1). exists hd_box, (fun _ => P), hd_identity. assert (Fa : fair_problem hd_box P) by now apply hd_fair.
  split; [exact hd_valid|]. split; [auto|]. intros H.
  assert (Pc : proper_call hd_box hd_cfg hd_ratios [[0]; [1]]%Z) by (apply hd_proper; lia).
  destruct (C123_spea2 hd_box (fun _ => P) hd_valid (fun _ => Fa) hd_hv hd_raw (1#1000) hd_cfg (fun _ => 0) hd_spea_draws hd_ratios _ [hd_draws hd_spea_draws] Pc (proj1 hd_enough))
    as (s0 & s & E0 & E & _).
  assert (Es : exists n0, nth_error (nodes s0) 0 = Some n0 /\ alive n0 = true /\ level n0 = 0 /\ driver n0 = (0, (2, spea_init P [[0]; [1]]%Z))).
  { vm_compute in E0. injection E0 as <-. eexists. split; [reflexivity|]. auto. }
  destruct Es as (n0 & En0 & Al & Lv & Dr).
  assert (R : reachable (at_new spea_node (fun _ => P)) (at_step spea_node (fun _ => P)) (at_cost spea_node) (at_final spea_node (fun _ => P)) (at_delegates spea_node (fun _ => P))
                hd_hv hd_raw (1#1000) hd_cfg s0).
  { eexists _, _, _, _, [], s0. split; [exact E0 | reflexivity]. }
  pose proof (H _ _ _ _ _ _ _ _ _ _ _ Pc (proj1 hd_enough) E0 E) as M.
  unfold run_hgs, hgs_run in E. cbn [fold_ok] in E. destruct (hgs_step _ _ _ _ _ _ _ _ _ _ _ s0 _) as [s1| |] eqn:E1; cbn [bind] in E; try discriminate. injection E as <-.
  destruct (persist _ _ _ _ _ _ _ _ _ _ _ s0 _ s1 R E1 0 n0 En0) as (n & ks & En & _).
  pose proof (work _ _ _ _ _ _ _ _ _ _ _ s0 _ s1 R E1 0 n0 n En0 En) as W. rewrite Al in W.
  destruct W as (len & n1 & Hl & Am & (_ & Po & _ & De & _)). rewrite Lv in Hl. cbn in Hl. injection Hl as <-.
  destruct (am_run _ _ _ _ _ _ _ _ Am) as (ds & d & fd & dels & Ll & It & Ef & _ & Ed & Pe).
  destruct ds as [|x [|y ds]]; cbn in Ll; try discriminate. cbn [iterate] in It. rewrite Dr in It. unfold at_step in It. cbn [fst snd] in It.
  cbn [spea_node n_step fst snd] in It. destruct (spea_step P untouched 2 (proj1_sig x 2) (spea_init P [[0]; [1]]%Z)) as [st|] eqn:Est; [|discriminate].
  injection It as <-. unfold at_final in Ef. cbn [spea_node n_final fst snd] in Ef. injection Ef as Edr Epo. rewrite <- Edr in Ed. unfold at_delegates in Ed.
  cbn [spea_node n_delegates fst snd] in Ed. apply some_inj in Ed.
  destruct (C77_step_selects_from_archive_and_population P untouched 2 (proj1_sig x 2) (spea_init P [[0]; [1]]%Z) st) as (un & e & -> & Hm & Le & Nd & _);
    [reflexivity | intros m k o; apply untouched_ok | intros m [] | cbn; lia | cbn; lia | exact Est |].
  cbn [spea_init spea_archive spea_population map app P hd_problem p_trim p_f] in Hm.
  assert (Lt : forall i, In i e -> i < 2).
  { intros i Hi. apply (in_map (nth_error [mk_member [0]%Z (hd_identity [0]%Z); mk_member [1]%Z (hd_identity [1]%Z)])) in Hi. rewrite <- Hm in Hi.
    apply in_map_iff in Hi. destruct Hi as (m & Hi & _). symmetry in Hi. apply nth_error_Some'  in Hi. exact Hi. }
  assert (I0 : forall i, i < 2 -> In i e).
  { intros i Hi. apply (NoDup_length_incl (l := e) (l' := seq 0 2)); [exact Nd | rewrite seq_length; lia | | apply in_seq; lia].
    intros j Hj. apply in_seq. specialize (Lt j Hj). lia. }
  assert (In' : forall i v, nth_error [mk_member [0]%Z (hd_identity [0]%Z); mk_member [1]%Z (hd_identity [1]%Z)] i = Some v -> In (m_value v) (map m_value (spea_archive st))).
  { intros i v Ei. apply in_map. assert (X : In (Some v) (map Some (spea_archive st))).
    { rewrite Hm, <- Ei. apply in_map, I0. apply nth_error_Some' in Ei. exact Ei. }
    apply in_map_iff in X. destruct X as (w & Ew & Hw). apply some_inj in Ew. now subst w. }
  assert (B : pareto_dom (hd_identity [0]%Z) (hd_identity [1]%Z)).
  { split; [repeat constructor; cbn; lia|]. exists 0, 0%Z, 1%Z. cbn. repeat split; lia. }
  refine (M 0 n En [1]%Z [0]%Z _ _ B).
  - rewrite De, <- Pe, <- Ed. exact (In' 1 _ eq_refl).
  - rewrite Po, <- Epo. exact (In' 0 _ eq_refl).
Qed.

Print Assumptions C123_nsgaii. Print Assumptions C123_jgbl. Print Assumptions C123_ibea. Print Assumptions C123_omopso. Print Assumptions C123_spea2.
Print Assumptions C123_smsemoa. Print Assumptions C123_nsgaiii. Print Assumptions C123_nsls_partial. Print Assumptions C123_nsls_refuted.
Print Assumptions C124_ibea. Print Assumptions C124_smsemoa. Print Assumptions C124_nsgaii_unbeaten. Print Assumptions C124_jgbl_unbeaten.
Print Assumptions C124_nsgaii_members_refuted. Print Assumptions C124_omopso_refuted. Print Assumptions C124_spea2_members. Print Assumptions C124_spea2_refuted.
