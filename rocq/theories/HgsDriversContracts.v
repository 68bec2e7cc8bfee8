(** Each driver's part of HGS's contract. *)
From Coq Require Import QArith Reals.
From Verif Require Import Spec Base DomModel DomProofs VarModel VarProofs NDSortModel NDSortProofs NsgaModel NsgaProofs HgsModel HgsSpec HgsNsgaModel HgsTotal
  SpeaSpec SpeaModel SpeaProofs IbeaModel IbeaProofs SmsSpec SmsModel SmsProofs JgblSpec JgblModel JgblProofs OmopsoSpec OmopsoModel OmopsoProofs Nsga3Spec Nsga3Model Nsga3Proofs NslsSpec NslsModel NslsProofs HgsDriversModel HgsDriversSpec HgsDriversProofs.
Local Open Scope nat_scope.

Lemma some_inj {A} (x y : A) : Some x = Some y -> x = y.
Proof. congruence. Qed.

Lemma shared_ok P known m k o : shared P known = Some m -> lookup k m = Some o -> o = p_f P k.
Proof.
  intros [= <-]. induction known as [|v l IH]; cbn [map lookup]; [discriminate|]. destruct (vec_eqb k v) eqn:E; [|exact IH].
  apply vec_eqb_spec in E. subst. congruence.
Qed.
Lemma untouched_ok P (m : list (vec * vec)) k o : untouched = Some m -> lookup k m = Some o -> o = p_f P k.
Proof. intros [= <-]. discriminate. Qed.

(** ---- SPEA2 ---- *)
Definition spea_good (P : params) (d : nat * spea_state) : Prop := 2 <= fst d /\ exists k, spea_inv P untouched (fst d) k (snd d).
Lemma spea_contract b P : valid_box b -> fair_problem b P -> node_contract spea_node b 2 spea_good (fun _ _ => True) P.
Proof.
  intros Vb (Eb & Ht & Hf & He & Hi). rewrite <- Eb in *. constructor.
  - intros x pop _ H2 Fp. eexists. split; [reflexivity|]. split; [exact H2|]. exists 0. cbn [fst snd].
    unfold spea_inv, spea_init. cbn. rewrite map_length. split; [reflexivity|]. split; [rewrite Forall_map; eapply Forall_impl; [|exact Fp]; exact Ht|].
    split; [reflexivity|]. split; [constructor|]. intros X. discriminate X.
  - intros (D & HD) (n & s) (H2 & k & I). cbn [fst snd] in *. cbn [spea_node n_step fst snd proj1_sig].
    destruct (SpeaProofs.step_ok P Vb Ht Hf He untouched (untouched_ok P) n H2 k (D n) s (HD n H2) I) as (s' & E & I'). rewrite E.
    exists (n, s'). split; [reflexivity|]. split; [|exact Logic.I]. split; [exact H2|]. now exists (S k).
  - intros x (n & s) (H2 & k & I) _. cbn [fst snd] in *. exists (n, s), (spea_finalized s), (map m_value (spea_archive s)).
    split; [reflexivity|]. split; [split; [exact H2|]; now exists k|]. destruct I as (_ & _ & _ & G & _).
    assert (B : Forall (in_box (p_dims P)) (map m_value (spea_archive s))) by (rewrite Forall_map; eapply Forall_impl; [|exact G]; intros m (X & _); exact X).
    split; [exact B|]. split; [reflexivity | exact B].
Qed.

(** ---- IBEA ---- *)
Definition ibea_good (a : ibea_params * (nat -> nat)) (s : ibea_state) : Prop :=
  exists N M size fresh all, 1 <= N <= size /\ ibea_inv (fst a) N M size fresh all s.

Lemma ibea_first_layer f m (l : list ind_ibea) : (forall v, length (f v) = m) -> l <> [] ->
  exists layer rest, paretofront_layers (fun i => f (ib_v i)) l = Some (layer :: rest) /\
    forall x, In x layer <-> In x l /\ nondominated_in (fun i => f (ib_v i)) l x.
Proof.
  intros Hf Ne. destruct (paretofront_layers_correct _ (fun i => f (ib_v i)) m l) as (ls & E & Pe & _ & H1 & _); [intros x _; apply Hf|].
  destruct ls as [|layer rest]; [apply Permutation_nil in Pe; congruence|]. exists layer, rest. split; [exact E|]. now apply H1.
Qed.

Lemma ibea_start P mating pop : (forall v, in_box (p_dims (ip P)) v -> in_box (p_dims (ip P)) (p_trim (ip P) v)) -> 1 <= p_m (ip P) ->
  1 <= length pop -> Forall (in_box (p_dims (ip P))) pop ->
  let N := length pop in ibea_inv P N (mating N) N N N (ibea_init P mating pop).
Proof.
  intros B C HN E N. fold N in HN. set (M := mating N).
  pose (s0 := {| ib_individuals := map (fun x => mk_ibea (p_trim (ip P) x) false) pop; ib_size := N; ib_mating := M; ib_cost := 0; ib_charged := [] |}).
  assert (E0 : ibea_init P mating pop = scale_objectives (ip_fa P) s0).
  { unfold ibea_init, s0, M, N. rewrite map_length. reflexivity. }
  rewrite E0. pose proof (scale_inv P C N M HN N 0 0 [] (ib_individuals s0) s0) as G.
  assert (L0 : length (ib_individuals s0) = N) by apply map_length. rewrite L0 in G. cbn [Nat.add] in G.
  apply G; auto; try (cbn; lia).
  apply Forall_forall. intros i Hi. apply in_map_iff in Hi. destruct Hi as (v & <- & Hv). cbn. split; [|reflexivity].
  apply B. rewrite Forall_forall in E. auto.
Qed.

Lemma ibea_contract b a : valid_box b -> fair_problem b (ip (fst a)) -> 1 <= p_m (ip (fst a)) ->
  node_contract ibea_node b 0 ibea_good (fun _ _ => True) a.
Proof.
  destruct a as (P & mating). cbn [fst]. intros Vb (Eb & Ht & Hf & He & Hi) Hm. rewrite <- Eb in *. constructor.
  - intros x pop H1 _ Fp. eexists. split; [reflexivity|]. cbn [fst snd].
    exists (length pop), (mating (length pop)), (length pop), (length pop), (length pop). split; [lia|]. now apply ibea_start.
  - intros D s (N & M & size & fresh & all & (HN & Hs) & I). cbn [fst] in I. cbn [ibea_node n_step fst].
    destruct (ibea_step_ok P Vb Ht Hm He N M HN D size fresh all s I Hs) as (s' & E & I'). exists s'. split; [exact E|]. split; [|exact Logic.I].
    exists N, M, (N + M), (fresh + M), (all + (N + M)). split; [lia | exact I'].
  - intros D s (N & M & size & fresh & all & (HN & Hs) & I) _. cbn [fst] in I. cbn [ibea_node n_final n_delegates fst].
    destruct (ibea_finish_ok P Hm N M HN size fresh all s I Hs) as (s' & out & E & I' & Lo & Bo). rewrite E.
    assert (Ne : ib_individuals s' <> []) by (destruct I' as (L & _); intros X; rewrite X in L; cbn in L; lia).
    destruct (ibea_first_layer (p_f (ip P)) (p_m (ip P)) (ib_individuals s') Hf Ne) as (layer & rest & El & Hl).
    exists s', out, (map ib_v layer). split; [reflexivity|]. split; [exists N, M, N, fresh, (all + size); split; [lia | exact I']|]. split; [exact Bo|].
    rewrite El. split; [reflexivity|]. rewrite Forall_map. apply Forall_forall. intros i Hl'. apply Hl in Hl'. destruct Hl' as (Hl' & _).
    destruct I' as (_ & _ & _ & F & _). rewrite Forall_forall in F. apply (F i Hl').
Qed.

(** ---- SMS-EMOA ---- *)
Definition sms_good (a : sms_args) (d : nat * sms_state) : Prop :=
  exists n g, 2 <= n /\ sms_inv (sa_params a) untouched n g (snd d).
Definition sms_setting (b : box) (a : sms_args) : Prop :=
  fair_problem b (sa_params a) /\ 1 <= length (sa_ref a) <= 3 /\ p_m (sa_params a) = length (sa_ref a) /\
  (length (sa_ref a) = 3 -> forall v, Forall2 (fun x r => (sa_neg a <= x - r)%Z) (p_f (sa_params a) v) (sa_ref a)).

Lemma sms_first_front P (pop : list member) : (forall v, length (p_f P v) = p_m P) -> (forall x l, Permutation (p_iter P x l) l) -> Forall (ok_member P) pop -> pop <> [] ->
  exists front rest, smsemoa_nd_sort (objectives_at pop) (p_iter P) (seq 0 (length pop)) = Some (front :: rest) /\
    forall i, In i front <-> i < length pop /\ forall j, j < length pop -> ~ pareto_dom (objectives_at pop j) (objectives_at pop i).
Proof.
  intros Hf Hi F Ne. destruct (smsemoa_nd_sort_ok (objectives_at pop) (p_m P) (p_iter P) (seq 0 (length pop)) Hi (seq_NoDup _ _)) as (fs & E & Pe & _ & Hfr).
  { intros i H. apply in_seq in H. unfold objectives_at. rewrite Forall_forall in F. destruct (F (nth i pop (mk_member [] []))) as (_ & ->); [apply nth_In; lia | apply Hf]. }
  destruct fs as [|front rest]; [apply Permutation_nil in Pe; destruct pop; [congruence | discriminate Pe]|].
  exists front, rest. split; [exact E|]. intros i. rewrite (Hfr 0 front i eq_refl). cbn [firstn concat]. rewrite in_seq. split.
  - intros (H1 & _ & H2). split; [lia|]. intros j Hj. apply H2; [apply in_seq; lia | intros []].
  - intros (H1 & H2). split; [lia|]. split; [intros []|]. intros j Hj _. apply in_seq in Hj. apply H2. lia.
Qed.

Lemma sms_contract b a : valid_box b -> sms_setting b a -> node_contract sms_node b 2 sms_good (fun _ _ => True) a.
Proof.
  intros Vb ((Eb & Ht & Hf & He & Hi) & Hr & Hm & Hlow). set (P := sa_params a) in *. rewrite <- Eb in *.
  assert (Hf' : forall v, length (p_f P v) = length (sa_ref a)) by (intros v; rewrite Hf; exact Hm). constructor.
  - intros x pop _ H2 Fp. eexists. split; [reflexivity|]. exists (length pop), 0. split; [exact H2|]. cbn [snd].
    eapply SmsProofs.init_ok; eauto using untouched_ok.
  - intros (D & HD) (e & s) (n & g & H2 & I). cbn [snd] in I. cbn [sms_node n_step fst snd proj1_sig]. fold P.
    assert (Ln : length (sms_individuals s) = n) by apply I. rewrite Ln.
    destruct (SmsProofs.steps_ok P (sa_neg a) (sa_ref a) Vb Ht Hr Hf' Hlow He Hi untouched (untouched_ok P) n H2 e [D n] g s) as (s' & E & I' & _);
      [constructor; [intros i _; now apply HD | constructor] | exact I|].
    cbn [sms_steps] in E. destruct (sms_step P (sa_neg a) (sa_ref a) untouched e (D n) s) as [s1|] eqn:E1; [|discriminate]. injection E as ->.
    exists (e, s'). split; [reflexivity|]. split; [|exact Logic.I]. eexists n, _. split; [exact H2|]. exact I'.
  - intros x (e & s) (n & g & H2 & I) _. cbn [snd] in I. cbn [sms_node n_final n_delegates fst snd]. fold P.
    assert (Ne : sms_individuals s <> []) by (destruct I as (L & _); intros X; rewrite X in L; cbn in L; lia).
    destruct I as (I1 & I2 & I3).
    destruct (sms_first_front P (sms_individuals s) Hf Hi I2 Ne) as (front & rest & E & Hfr).
    exists (e, s), (sms_finalized s), (map (fun i => m_value (nth i (sms_individuals s) (mk_member [] []))) front).
    split; [reflexivity|]. split; [exists n, g; split; [exact H2 | split; auto]|].
    assert (B : Forall (fun m => in_box (p_dims P) (m_value m)) (sms_individuals s)) by (eapply Forall_impl; [|exact I2]; intros m (X & _); exact X).
    split; [unfold sms_finalized; now rewrite Forall_map|]. cbn [snd]. rewrite E. split; [reflexivity|].
    rewrite Forall_map. apply Forall_forall. intros i Hin. apply Hfr in Hin. destruct Hin as (L & _). rewrite Forall_forall in B. apply B, nth_In. exact L.
Qed.

(** ---- NSGA-II and JGBL ---- *)
Definition pop_good (a : params * (nat -> nat)) (d : nd) : Prop := nd_good (fst a) d.
Lemma with_archive_good P known d : nd_good P d -> nd_good P (with_archive (fst d) (shared P known), snd d).
Proof.
  intros ((N & M & HN & I) & F). split; [|exact F]. exists N, M. split; [exact HN|]. cbn [fst]. destruct I as (I1 & I2 & I3 & I4 & _ & I6).
  unfold NsgaProofs.inv. cbn. repeat (split; [assumption|]). split; [|exact I6]. intros m k o. apply shared_ok.
Qed.
Lemma nsga_start P mating known pop : (forall v, in_box (p_dims P) v -> in_box (p_dims P) (p_trim P v)) -> 1 <= length pop -> Forall (in_box (p_dims P)) pop ->
  nd_good P (init P mating (shared P known) pop, []).
Proof.
  intros Ht H1 Fp. split; [|constructor]. cbn [fst]. destruct (NsgaProofs.init_ok P Ht mating (shared P known) pop Fp) as (In & _); [intros m k o; apply shared_ok|].
  exists (length pop), (mating (length pop)). split; [exact H1 | exact In].
Qed.

Lemma nsga_node_contract b a : valid_box b -> fair_problem b (fst a) -> (0 < p_eps (fst a))%Q ->
  node_contract nsga_node b 0 pop_good (fun _ _ => True) a.
Proof.
  destruct a as (P & mating). cbn [fst]. intros Vb (Eb & Ht & Hf & He & Hi) Hq. rewrite <- Eb in *.
  pose proof (nsga_contract P mating Vb Ht Hf He Hq Hi) as K. constructor.
  - intros x pop H1 _ Fp. eexists. split; [reflexivity|]. now apply nsga_start.
  - intros (D & known) d G. apply (with_archive_good P known) in G. destruct (dc_step _ _ _ _ _ _ _ _ K D _ G) as (d' & E & G' & _). exists d'. auto.
  - intros (D & known) d G _. apply (with_archive_good P known) in G. destruct (dc_final _ _ _ _ _ _ _ _ K D _ G Logic.I) as (d' & pop & dels & E & G' & Fp & Ed & Fd).
    exists d', pop, dels. auto.
Qed.

Lemma jgbl_node_contract b a : valid_box b -> fair_problem b (fst a) -> (0 < p_eps (fst a))%Q ->
  node_contract (jgbl_node b) b 0 pop_good (fun _ _ => True) a.
Proof.
  destruct a as (P & mating). cbn [fst]. intros Vb (Eb & Ht & Hf & He & Hi) Hq. subst b.
  pose proof (nsga_contract P mating Vb Ht Hf He Hq Hi) as K. constructor.
  - intros x pop H1 _ Fp. eexists. split; [reflexivity|]. now apply nsga_start.
  - intros ((D & (J & HJ)) & known) d G. apply (with_archive_good P known) in G. destruct G as ((N & M & HN & I) & F). cbn [fst snd] in I, F.
    destruct (JgblProofs.jstep_ok P Vb Ht Hf He Hq Hi N M D J _ HN I HJ) as (plain & s' & _ & E & I' & _).
    exists (s', snd d). cbn [jgbl_node n_step fst snd proj1_sig]. rewrite E. split; [reflexivity|]. split; [|exact Logic.I]. split; [exists N, M; auto | exact F].
  - intros ((D & J) & known) d G _. apply (with_archive_good P known) in G. destruct (dc_final _ _ _ _ _ _ _ _ K D _ G Logic.I) as (d' & pop & dels & E & G' & Fp & Ed & Fd).
    exists d', pop, dels. auto.
Qed.

(** ---- OMOPSO ---- *)
Definition om_node_good (a : params * (Z * Z)) (s : om_state) : Prop := exists n, 1 <= n /\ om_ok (fst a) untouched n s.
Lemma omopso_contract b a : valid_box b -> fair_problem b (fst a) -> 1 <= p_m (fst a) -> node_contract omopso_node b 0 om_node_good (fun _ _ => True) a.
Proof.
  destruct a as (P & (en & ed)). cbn [fst]. intros Vb (Eb & Ht & Hf & He & Hi) Hm. rewrite <- Eb in *. constructor.
  - intros x pop H1 _ Fp. destruct (om_init_ok P Ht Hf Hm untouched (untouched_ok P) en ed pop) as (s & E & Ok & _); [destruct pop; [cbn in H1; lia | discriminate] | exact Fp|].
    exists s. split; [exact E|]. exists (length pop). auto.
  - intros (D & HD) s (n & Hn & Ok). cbn [fst] in Ok.
    destruct (om_step_ok P Vb Ht Hf Hm untouched (untouched_ok P) en ed n s (D (length (om_leaders s))) Hn Ok) as (s' & E & Ok' & _).
    { intros k _ L. apply HD. exact L. }
    exists s'. split; [exact E|]. split; [|exact Logic.I]. exists n. auto.
  - intros x s (n & Hn & Ok) _. cbn [fst] in Ok. exists s, (om_finalized s), (map OmopsoModel.value (om_particles s)). split; [reflexivity|].
    split; [exists n; auto|]. destruct Ok as (_ & _ & I3 & _ & _ & _ & I7 & _).
    split; [unfold om_finalized; rewrite Forall_map; eapply Forall_impl; [|exact I7]|].
    + intros l (_ & (Hl & _) & _). exact Hl.
    + split; [reflexivity|]. rewrite Forall_map; eapply Forall_impl; [|exact I3]. intros p ((Hp & _) & _). exact Hp.
Qed.

(** ---- NSGA-III ---- *)
Definition n3_node_good (a : params * R) (d : n3_state * option (list vec)) : Prop :=
  exists n, 2 <= n /\ n3_ok (fst a) n (fst d) /\ forall l, snd d = Some l -> Forall (in_box (p_dims (fst a))) l.
Definition n3_node_ready (_ : params * R) (d : n3_state * option (list vec)) : Prop := snd d <> None.

Lemma n3_with_archive_ok P n s known : n3_ok P n s -> n3_ok P n (n3_with_archive s (shared P known)).
Proof.
  intros (I1 & I2 & I3 & I4 & I5 & I6 & I7 & (I8 & _) & I9 & _ & I11). unfold n3_ok, n3_with_archive.
  cbn [n3_individuals n3_size n3_refs n3_ideal n3_context n3_seen fst snd]. repeat (split; [assumption|]).
  split; [split; cbn [fst snd]; [exact I8 | intros m k o; apply shared_ok]|]. split; [assumption|]. split; [discriminate | assumption].
Qed.
Lemma in_fronts (fronts : list (list nat)) n i : Permutation (concat fronts) (seq 0 n) -> In i (hd [] fronts) -> i < n.
Proof.
  intros Hp Hi. assert (In i (concat fronts)) as H. { destruct fronts as [|f fronts]; [destruct Hi|]. cbn. apply in_or_app. now left. }
  rewrite Hp in H. apply in_seq in H. lia.
Qed.

Lemma n3_contract b a : valid_box b -> fair_problem b (fst a) -> (forall v, p_trim (fst a) (p_trim (fst a) v) = p_trim (fst a) v) ->
  1 <= p_m (fst a) -> (0 < p_epsilon (fst a))%Z -> node_contract n3_node b 2 n3_node_good n3_node_ready a.
Proof.
  destruct a as (P & theta). cbn [fst]. intros Vb (Eb & Ht & Hf & _ & Hi) Hid Hm He. rewrite <- Eb in *. constructor.
  - intros (x & Hx1 & Hx2) pop H1 H2 Fp. cbn [n3_node n_new fst proj1_sig].
    destruct (n3_init_ok P Ht Hid Hf Hm (nn_refs x) (shared P (nn_known x)) pop Hx2) as (s & E & Ok & _); [intros m k o; apply shared_ok | exact Fp|].
    rewrite E. eexists. split; [reflexivity|]. exists (length pop). cbn [fst snd]. split; [lia|]. split; [exact Ok | discriminate].
  - intros (x & Hx1 & Hx2) d (n & Hn & Ok & _). cbn [n3_node n_step fst snd proj1_sig] in *.
    apply (n3_with_archive_ok P n (fst d) (nn_known x)) in Ok. set (s := n3_with_archive _ _) in *.
    assert (Hs : n3_size s = n) by apply Ok. rewrite Hs.
    destruct (n3_step_ok P Vb Ht Hid Hf Hm He Hi theta n (nn_step x n) s (Hx1 n Hn) Ok)
      as (off & off' & ctx & ideal & ns & cs & fr0 & EO & _ & EU & _ & SU & EN & _ & EC & _ & _ & _ & ST & _).
    destruct (ST Hn (2 * n) (le_n _)) as (e0 & k0 & last0 & kept0 & _ & _ & _ & _ & _ & _ & _ & _ & s' & E & _ & Ok' & _). rewrite E.
    destruct (theta_fronts (fun i => fst (nth i cs (0%nat, 0%R)))
       (fun i => theta_fitness theta (n3_refs s) (nth i ns []) (nth i cs (0%nat, 0%R))) (p_iter P) (length (off' ++ n3_individuals s)) Hi) as (fronts & EF & HF).
    unfold n3_front. rewrite EO, EU, EN, EC. cbv zeta. rewrite EF. eexists. split; [reflexivity|]. split; [|discriminate].
    exists n. cbn [fst snd]. split; [exact Hn|]. split; [exact Ok'|]. intros l H. apply some_inj in H. subst l.
    rewrite Forall_map. apply Forall_forall. intros i Hh. destruct HF as (FP & _). apply (in_fronts _ _ _ FP) in Hh.
    assert (K : Forall (settled P) (off' ++ n3_individuals s)) by (apply Forall_app; split; [exact SU | apply Ok]).
    rewrite Forall_forall in K. destruct (K (at_pos (off' ++ n3_individuals s) i)) as ((B & _) & _); [now apply nth_In | exact B].
  - intros x d (n & Hn & Ok & F) R. cbn [n3_node n_final n_delegates fst snd] in *. destruct (snd d) as [l|] eqn:E; [|now elim R].
    exists d, (n3_finalized (fst d)), l. split; [reflexivity|]. split; [exists n; cbn [fst]; rewrite E; auto|].
    split; [|split; [exact E | auto]]. unfold n3_finalized. rewrite Forall_map. destruct Ok as (I1 & _). eapply Forall_impl; [|exact I1].
    intros i ((B & _) & _). exact B.
Qed.

(** ---- NSLS ---- *)
Definition nl_node_good (P : params) (d : nsls_state * option (list vec)) : Prop :=
  (exists n, nsls_ok P n (fst d)) /\ forall l, snd d = Some l -> Forall (in_box (p_dims P)) l.

Lemma one_cannot_sample P D i ctx : 1 <= length (p_dims P) -> local_search P D ([i], ctx) = None.
Proof.
  intros Hd. unfold local_search. destruct (length (p_dims P)) as [|d]; [lia|]. cbn [length seq map for_each]. unfold search_one at 1.
  destruct (ls_sample D 0 0) as (a, b). destruct (a =? b) eqn:E; [reflexivity|]. apply Nat.eqb_neq in E.
  cbn [nth_error]. destruct a as [|[|a]]; cbn [nth_error]; try reflexivity. destruct b as [|[|b]]; cbn [nth_error]; try reflexivity. now elim E.
Qed.
Lemma nl_box P : (forall k v, in_box_except k (p_dims P) v -> in_box_except k (p_dims P) (p_trim P v)) ->
  forall n D sample s f s', (forall x l, Permutation (p_iter P x l) l) -> (forall v, length (p_f P v) = p_m P) -> 1 <= p_m P ->
  (2 <= n -> ls_good P n D) -> is_sample sample -> nsls_ok P n s ->
  nl_front P D s = Some f -> nsls_step P (2 * n) D sample s = Done s' -> nsls_ok P n s' /\ Forall (in_box (p_dims P)) f.
Proof.
  intros Ht n D sample s f s' Hi Hf Hm HD HS Ok Ef Es.
  assert (G : ls_good P n D).
  { destruct (Nat.lt_ge_cases n 2) as [L|L]; [|auto]. intros i k Hin Hk. exfalso. assert (n = 1) as -> by lia.
    destruct Ok as (HI & HL & _ & _ & HC2). unfold nl_front in Ef. destruct (nl_context s) as [[c ar] tr] eqn:Ec. cbn [fst snd] in HC2.
    destruct (evaluate_run P (nl_individuals s) [] c ar tr HC2) as (inds & new & ar' & Er & HR & _); [eapply Forall_impl; [|exact HI]; cbn; tauto|].
    cbn [app] in Er. rewrite Er in Ef. apply Forall2_length' in HR. destruct inds as [|x [|y inds]]; cbn in HR; try lia.
    rewrite one_cannot_sample in Ef by lia. discriminate. }
  destruct (nsls_step_ok P Ht Hf Hm Hi n D sample s G HS Ok) as (inds & copy & ctx' & EL & HR & HLc & H0 & H1).
  destruct (filter snd copy) as [|e0 rest] eqn:Efil; [rewrite (H0 eq_refl) in Es; discriminate|]. rewrite <- Efil in *.
  destruct (H1 ltac:(rewrite Efil; discriminate) (2 * n) (le_n _)) as (s'' & Es' & Ok' & _). rewrite Es in Es'. injection Es' as <-.
  split; [exact Ok'|].
  destruct Ok as (HI & HL & HZ & HC1 & HC2). unfold nl_front in Ef. destruct (nl_context s) as [[c ar] tr] eqn:Ec. cbn [fst snd] in *.
  destruct (evaluate_run P (nl_individuals s) [] c ar tr HC2) as (inds' & new & ar' & Er & HR' & Har & _); [eapply Forall_impl; [|exact HI]; cbn; tauto|].
  cbn [app] in Er. rewrite Er in *.
  assert (HF : Forall (fine P) inds').
  { apply Forall_forall. intros y Hy. apply In_nth_error in Hy. destruct Hy as (j & Hj).
    pose proof HR' as HR2. apply Forall2_nth_error in HR2. destruct HR2 as (HRL & HR2).
    destruct (nth_error (nl_individuals s) j) as [x|] eqn:Ex; [|apply nth_error_None in Ex; apply nth_error_Some' in Hj; lia].
    destruct (HR2 j x y Ex Hj) as (V & O). rewrite Forall_forall in HI. destruct (HI x) as (B & _); [eapply nth_error_In; eauto|].
    split; congruence. }
  assert (HLi : length inds' = n) by (apply Forall2_length' in HR'; lia). rewrite <- HLi in G.
  destruct (local_search_ok P Ht Hf D inds' (c + length new, ar', tr ++ new) G HF) as (copy' & ctx'' & EL' & _ & HFc & _).
  { split; cbn [fst snd]; [rewrite app_length; lia | exact Har]. }
  rewrite EL' in Ef.
  assert (HFp : Forall (fine P) (inds' ++ map fst (filter snd copy'))).
  { apply Forall_app. split; [exact HF|]. rewrite Forall_map. apply Forall_forall. intros e He. apply filter_In in He.
    rewrite Forall_forall in HFc. now apply HFc. }
  destruct (nsls_fronts (p_iter P) _ (p_m P) Hi (fine_all_dim P Hf _ HFp)) as (fronts & EF & (FP & _)). rewrite EF in Ef.
  apply some_inj in Ef. subst f. rewrite Forall_map. apply Forall_forall. intros i Hin. apply (in_fronts _ _ _ FP) in Hin.
  rewrite Forall_forall in HFp. destruct (HFp (at_pos (inds' ++ map fst (filter snd copy')) i)) as (B & _); [now apply nth_In | exact B].
Qed.

Lemma nsls_partial b P : fair_problem b P -> (forall k v, in_box_except k b v -> in_box_except k b (p_trim P v)) -> 1 <= p_m P ->
  node_partial nsls_node b nl_node_good P.
Proof.
  intros (Eb & _ & Hf & _ & Hi) Ht Hm. subst b. constructor.
  - intros (x & Hx) pop d Fp [= <-]. split; [|discriminate]. exists (length pop). apply nsls_init_ok; [exact Ht | intros m k o; apply shared_ok | exact Fp].
  - intros (x & Hx1 & Hx2) d d' ((n & Ok) & _) E. cbn [nsls_node n_step proj1_sig] in E.
    assert (Ok1 : nsls_ok P n (nl_with_archive (fst d) (shared P (nl_known x)))).
    { destruct Ok as (O1 & O2 & O3 & O4 & _). unfold nsls_ok, nl_with_archive. cbn [nl_individuals nl_size nl_context].
      split; [exact O1|]. split; [exact O2|]. split; [exact O3|]. split; cbn [fst snd]; [exact O4 | intros m k o; apply shared_ok]. }
    set (s := nl_with_archive _ _) in *. assert (Hs : nl_size s = n) by apply Ok1. rewrite Hs in E.
    destruct (nl_front P _ s) as [f|] eqn:Ef; [|discriminate]. destruct (nsls_step P _ _ _ s) as [s'| |] eqn:Es; try discriminate. injection E as <-.
    destruct (nl_box P Ht n (nl_search x n) (nl_sample x) s f s' Hi Hf Hm) as (K1 & K2); try assumption.
    { intros Hn i k _ _. apply Hx1. exact Hn. }
    split; [exists n; exact K1|]. cbn [snd]. intros l [= <-]. exact K2.
  - intros x d d' pop ((n & Ok) & F) E. cbn [nsls_node n_final] in E. injection E as <- <-. split; [split; [exists n; exact Ok | exact F]|].
    split; [|intros dels Ed; apply F; exact Ed]. unfold nsls_finalized. rewrite Forall_map. destruct Ok as (O1 & _). eapply Forall_impl; [|exact O1]. cbn. tauto.
Qed.
