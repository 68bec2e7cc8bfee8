(** Property C119: drivers with a trimming function evaluate and return trimmed vectors only. *)
From Verif Require Import Spec Base NsgaModel JgblModel SpeaModel SmsModel IbeaModel NslsModel Nsga3Model OmopsoModel
  TrimRunModel TrimRunSpec TrimRunProofs.
From Verif Require NsgaProps NslsProps SmsProps OmopsoProps.
Local Open Scope nat_scope.

(** The trimming function of HGS is one of those covered, and what it leaves unchanged are vectors whose
    genes have at most [k] significant bits. *)
Lemma trim_bits_split k x : exists m s, (0 <= s /\ 0 <= m < 2 ^ Z.of_nat k /\ trim_bits k x = Z.sgn x * (m * 2 ^ s))%Z /\
  (x <> 0 -> trim_bits k x <> 0 -> Z.log2 (m * 2 ^ s) = Z.log2 (Z.abs x))%Z /\ s = Z.max 0 (Z.log2 (Z.abs x) + 1 - Z.of_nat k).
Proof.
  unfold trim_bits. set (n := Z.abs x). set (s := Z.max 0 (Z.log2 n + 1 - Z.of_nat k)). exists (n / 2 ^ s)%Z, s.
  assert (Hn : (0 <= n)%Z) by apply Z.abs_nonneg. assert (Hs : (0 <= s)%Z) by lia.
  assert (P2 : (0 < 2 ^ s)%Z) by (apply Z.pow_pos_nonneg; lia).
  assert (Hq : (0 <= n / 2 ^ s)%Z) by (apply Z.div_pos; lia).
  split; [split; [exact Hs|split; [split; [exact Hq|]|reflexivity]]|split; [|reflexivity]].
  - destruct (Z.eq_dec n 0) as [E|E]; [rewrite E, Z.div_0_l by lia; apply Z.pow_pos_nonneg; lia|].
    pose proof (Z.log2_spec n ltac:(lia)) as (_ & U). apply Z.div_lt_upper_bound; [exact P2|].
    rewrite <- Z.pow_add_r by lia. eapply Z.lt_le_trans; [exact U|]. apply Z.pow_le_mono_r; lia.
  - intros Hx Ht. assert (Hq0 : (n / 2 ^ s <> 0)%Z) by (intros E; apply Ht; rewrite E; lia).
    apply Z.log2_unique; [apply Z.log2_nonneg|]. assert (En : n <> 0%Z) by lia.
    pose proof (Z.log2_spec n ltac:(lia)) as (L & U). split.
    + (* the highest bit survives *)
      assert (Hl : (s <= Z.log2 n)%Z).
      { destruct (Z.le_gt_cases s (Z.log2 n)) as [H|H]; [exact H|]. exfalso. apply Hq0. apply Z.div_small. split; [exact Hn|].
        eapply Z.lt_le_trans; [exact U|]. apply Z.pow_le_mono_r; lia. }
      replace (Z.log2 n) with ((Z.log2 n - s) + s)%Z in L |- * by lia. rewrite Z.pow_add_r in L |- * by lia.
      apply Z.mul_le_mono_nonneg_r; [lia|]. apply Z.div_le_lower_bound; [exact P2|lia].
    + eapply Z.le_lt_trans; [|exact U]. rewrite Z.mul_comm. apply Z.mul_div_le. exact P2.
Qed.

Lemma trim_bits_idem k x : trim_bits k (trim_bits k x) = trim_bits k x.
Proof.
  destruct (Z.eq_dec (trim_bits k x) 0) as [E|E]; [rewrite E; unfold trim_bits; reflexivity|].
  assert (Hx : x <> 0%Z) by (intros ->; apply E; reflexivity).
  destruct (trim_bits_split k x) as (m & s & (Hs & Hm & Et) & Hl & Es). specialize (Hl Hx E).
  assert (P2 : (0 < 2 ^ s)%Z) by (apply Z.pow_pos_nonneg; lia).
  assert (A : Z.abs (trim_bits k x) = (m * 2 ^ s)%Z).
  { rewrite Et, Z.abs_mul, (Z.abs_eq (m * 2 ^ s)) by nia. assert (Z.abs (Z.sgn x) = 1)%Z by lia. lia. }
  assert (G : Z.sgn (trim_bits k x) = Z.sgn x).
  { rewrite Et in E |- *. rewrite Z.sgn_mul, Z.sgn_sgn. destruct (Z.sgn_pos_iff (m * 2 ^ s)) as (_ & H).
    rewrite H; [lia|]. assert (m * 2 ^ s <> 0)%Z by (intros H0; apply E; rewrite H0; lia). nia. }
  unfold trim_bits at 1. rewrite A, G, Hl, <- Es, Z.div_mul by lia. symmetry. exact Et.
Qed.

Theorem C119_hgs_trimming : forall k : nat,
  rounds_genes (trim_genes k) /\
  forall v, trim_genes k v = v <-> Forall (short k) v.
Proof.
  intros k. split; [exists (trim_bits k); split; [apply trim_bits_idem|reflexivity]|].
  assert (F : forall x, trim_bits k x = x <-> short k x).
  { intros x. split.
    - intros E. destruct (trim_bits_split k x) as (m & s & (Hs & Hm & Et) & _). exists (Z.sgn x * m)%Z, s.
      split; [exact Hs|]. split; [rewrite Z.abs_mul, (Z.abs_eq m) by lia; assert (Z.abs (Z.sgn x) <= 1)%Z by lia; nia|].
      rewrite <- E at 1. rewrite Et. lia.
    - intros (m & e & He & Hm & ->). destruct (Z.eq_dec m 0) as [->|Hm0]; [reflexivity|].
      assert (P2 : (0 < 2 ^ e)%Z) by (apply Z.pow_pos_nonneg; lia).
      unfold trim_bits. rewrite Z.abs_mul, (Z.abs_eq (2 ^ e)) by lia. rewrite Z.log2_mul_pow2 by lia.
      set (d := Z.max 0 (e + Z.log2 (Z.abs m) + 1 - Z.of_nat k)).
      assert (Hd : (0 <= d <= e)%Z).
      { split; [lia|]. assert (Z.log2 (Z.abs m) < Z.of_nat k)%Z; [|lia]. apply Z.log2_lt_pow2; lia. }
      assert (Q : (Z.abs m * 2 ^ e / 2 ^ d * 2 ^ d = Z.abs m * 2 ^ e)%Z).
      { assert (Ee : (2 ^ e = 2 ^ (e - d) * 2 ^ d)%Z) by (rewrite <- Z.pow_add_r by lia; f_equal; lia).
        rewrite Ee, Z.mul_assoc, Z.div_mul by (apply Z.pow_nonzero; lia). lia. }
      rewrite Q, Z.sgn_mul. destruct (Z.sgn_pos_iff (2 ^ e)) as (_ & H). rewrite (H P2), Z.mul_1_r, Z.mul_assoc. f_equal. lia. }
  intros v. unfold trim_genes. induction v as [|x v IH]; cbn; [split; [constructor|reflexivity]|]. split.
  - intros E. injection E as E1 E2. constructor; [apply F; exact E1|apply IH; exact E2].
  - intros H. inversion H as [|? ? H1 H2]. subst. f_equal; [apply F; exact H1|apply IH; exact H2].
Qed.
Print Assumptions C119_hgs_trimming.

(** A run that returns has handed to the objectives, and holds or returns, only trimmed vectors;
    whatever the problem, the initial population and the draws. *)
Theorem C119_nsgaii : forall P mating ar population ops s, rounds_genes (p_trim P) ->
  run_ops P (init P mating ar population) ops = Some s ->
  all_trimmed (p_trim P) (evals s) /\ all_trimmed (p_trim P) (map iv (individuals s)) /\
  forall s' returned, finish P s = Some (s', returned) -> all_trimmed (p_trim P) returned.
Proof.
  intros P mating ar population ops s HT E. pose proof (run_ops_ok P HT ops _ _ (init_ok P HT mating ar population) E) as H.
  split; [exact (proj2 H)|]. split.
  - intros v Hv. apply in_map_iff in Hv as (i & <- & Hi). exact (proj1 H i Hi).
  - intros s' l F. destruct (finish_ok P s s' l H F) as (H' & ->). intros v Hv. apply in_map_iff in Hv as (i & <- & Hi). exact (proj1 H' i Hi).
Qed.
Print Assumptions C119_nsgaii.

(** The draws of JGBL's set orders are permutations. *)
Theorem C119_jgbl : forall P mating ar population ops s, rounds_genes (p_trim P) ->
  Forall (fun o => match o with
                   | JStep _ J => (forall l, Permutation (j_union J l) l) /\ (forall l, Permutation (j_union2 J l) l)
                   | JFinalize => True
                   end) ops ->
  run_jops P (init P mating ar population) ops = Some s ->
  all_trimmed (p_trim P) (evals s) /\ all_trimmed (p_trim P) (map iv (individuals s)) /\
  forall s' returned, finish P s = Some (s', returned) -> all_trimmed (p_trim P) returned.
Proof.
  intros P mating ar population ops s HT HO E. pose proof (run_jops_trim P HT ops HO _ _ (init_ok P HT mating ar population) E) as H.
  split; [exact (proj2 H)|]. split.
  - intros v Hv. apply in_map_iff in Hv as (i & <- & Hi). exact (proj1 H i Hi).
  - intros s' l F. destruct (finish_ok P s s' l H F) as (H' & ->). intros v Hv. apply in_map_iff in Hv as (i & <- & Hi). exact (proj1 H' i Hi).
Qed.
Print Assumptions C119_jgbl.

Theorem C119_spea2 : forall P fa population Ds s, rounds_genes (p_trim P) -> spea_run P fa population Ds = Some s ->
  all_trimmed (p_trim P) (spea_evals s) /\ all_trimmed (p_trim P) (spea_population s) /\ all_trimmed (p_trim P) (spea_finalized s).
Proof.
  intros P fa population Ds s HT E. destruct (spea_steps_ok P HT _ _ _ _ _ (spea_init_ok P HT population) E) as (H1 & H2 & H3).
  split; [exact H3|]. split; [exact H1|]. intros v Hv. apply in_map_iff in Hv as (m & <- & Hm). exact (H2 m Hm).
Qed.
Print Assumptions C119_spea2.

Theorem C119_ibea : forall P mating population ops s, rounds_genes (p_trim (ip P)) ->
  ibea_ops P (ibea_init P mating population) ops = Some s ->
  all_trimmed (p_trim (ip P)) (map ib_v (ib_charged s)) /\ all_trimmed (p_trim (ip P)) (map ib_v (ib_individuals s)) /\
  forall s' returned, ibea_finish P s = Some (s', returned) -> all_trimmed (p_trim (ip P)) returned.
Proof.
  intros P mating population ops s HT E. pose proof (ibea_ops_ok P HT ops _ _ (ibea_init_ok P HT mating population) E) as H.
  split; [|split].
  - intros v Hv. apply in_map_iff in Hv as (i & <- & Hi). exact (proj2 H i Hi).
  - intros v Hv. apply in_map_iff in Hv as (i & <- & Hi). exact (proj1 H i Hi).
  - intros s' l F. assert (G : ibea_op P s Finalize = Some s') by (cbn; rewrite F; reflexivity).
    apply (ibea_op_ok P HT _ _ _ H) in G. assert (El : l = map ib_v (ib_individuals s')).
    { unfold ibea_finish in F. cbv zeta in F. destruct (ibea_select P _) as [(surv & fit)|]; [|discriminate]. injection F as <- <-. reflexivity. }
    subst l. intros v Hv. apply in_map_iff in Hv as (i & <- & Hi). exact (proj1 G i Hi).
Qed.
Print Assumptions C119_ibea.

Theorem C119_smsemoa : forall P neg ref fa epoch_length population Ds s, rounds_genes (p_trim P) ->
  sms_run P neg ref fa epoch_length population Ds = Some s ->
  all_trimmed (p_trim P) (sms_evals s) /\ all_trimmed (p_trim P) (sms_finalized s).
Proof.
  intros P neg ref fa n population Ds s HT E. destruct (sms_steps_ok P HT _ _ _ _ _ _ _ (sms_init_ok P HT fa population) E) as (H1 & H2).
  split; [exact H2|]. intros v Hv. apply in_map_iff in Hv as (m & <- & Hm). exact (H1 m Hm).
Qed.
Print Assumptions C119_smsemoa.

Theorem C119_nsls : forall P fuel ar population Ds s, rounds_genes (p_trim P) ->
  nsls_steps P fuel Ds (nsls_init P ar population) = Done s ->
  all_trimmed (p_trim P) (snd (nl_context s)) /\ all_trimmed (p_trim P) (nsls_finalized s).
Proof.
  intros P fuel ar population Ds s HT E. destruct (nsls_steps_ok P HT _ _ _ _ (nsls_init_ok P HT ar population) E) as (H1 & H2).
  split; [exact H2|]. intros v Hv. apply in_map_iff in Hv as (m & <- & Hm). exact (H1 m Hm).
Qed.
Print Assumptions C119_nsls.

Theorem C119_nsgaiii : forall P rands theta fuel ar population Ds s0 s, rounds_genes (p_trim P) ->
  n3_init P rands ar population = Some s0 -> n3_steps P theta fuel Ds s0 = Done s ->
  all_trimmed (p_trim P) (snd (n3_context s)) /\ all_trimmed (p_trim P) (n3_finalized s).
Proof.
  intros P rands theta fuel ar population Ds s0 s HT E0 E. destruct (n3_steps_ok P HT _ _ _ _ _ (n3_init_ok P HT _ _ _ _ E0) E) as (H1 & H2).
  split; [exact H2|]. intros v Hv. apply in_map_iff in Hv as (m & <- & Hm). exact (H1 m Hm).
Qed.
Print Assumptions C119_nsgaiii.

Theorem C119_omopso : forall P en ed fa population Ds s0 s, rounds_genes (p_trim P) ->
  om_init P en ed fa population = Some s0 -> om_steps P en ed fa Ds s0 = Some s ->
  all_trimmed (p_trim P) (om_evals s) /\ all_trimmed (p_trim P) (map OmopsoModel.value (om_particles s)) /\
  all_trimmed (p_trim P) (om_finalized s).
Proof.
  intros P en ed fa population Ds s0 s HT E0 E. destruct (om_steps_ok P HT _ _ _ _ _ _ (om_init_ok P HT _ _ _ _ _ E0) E) as (H1 & H2 & H3 & H4).
  split; [exact H4|]. split; intros v Hv; apply in_map_iff in Hv as (m & <- & Hm); [exact (H1 m Hm)|exact (H3 m Hm)].
Qed.
Print Assumptions C119_omopso.

(** The example problems of the drivers with genes cut to two bits. *)
Definition two_bits (P : params) : params :=
  {| p_dims := p_dims P; p_f := p_f P; p_m := p_m P; p_trim := trim_genes 2; p_crossover_rate := p_crossover_rate P;
     p_mutation_rate := p_mutation_rate P; p_raw := p_raw P; p_raw_a := p_raw_a P; p_raw_b := p_raw_b P; p_half := p_half P;
     p_epsilon := p_epsilon P; p_eps := p_eps P; p_iter := p_iter P |}.
Example C119_example :
  rounds_genes (p_trim (two_bits NsgaProps.ex_params)) /\
  map (trim_bits 3) [45; -45; 7; 0; 9]%Z = [40; -40; 7; 0; 8]%Z /\
  (match run_ops (two_bits NsgaProps.ex_params)
           (init (two_bits NsgaProps.ex_params) (fun n => n / 2) None [[1; 2]; [3; 5]; [9; 0]; [3; 9]]%Z)
           [Step NsgaProps.ex_draws; Finalize; Step NsgaProps.ex_draws] with
   | Some s => length (evals s) = 8 /\ firstn 4 (evals s) = [[1; 2]; [3; 4]; [8; 0]; [3; 8]]%Z /\ length (individuals s) = 6
   | None => False
   end) /\
  (match nsls_steps (two_bits (NslsProps.nsls_ex NslsProps.nsls_f2 2)) 4
           [(NslsProps.nsls_quarter, @firstn nat); (NslsProps.nsls_quarter, @firstn nat)]
           (nsls_init (two_bits (NslsProps.nsls_ex NslsProps.nsls_f2 2)) None [[9]; [-5]]%Z) with
   | Done s => nsls_finalized s = [[4]; [0]]%Z
   | _ => False
   end) /\
  (match sms_run (two_bits SmsProps.sms_ex_params) (-1000) [11; 11]%Z None 2 [[2; 8]; [6; 4]; [7; 7]]%Z [SmsProps.sms_ex_draws; SmsProps.sms_ex_draws] with
   | Some s => length (sms_evals s) = 7 /\ firstn 3 (sms_evals s) = [[2; 8]; [6; 4]; [6; 6]]%Z
   | None => False
   end) /\
  (match om_init (two_bits OmopsoProps.om_ex) 75 10000 None [[9]; [-5]]%Z with
   | Some s0 => match om_steps (two_bits OmopsoProps.om_ex) 75 10000 None [OmopsoProps.om_ex_draws] s0 with
                | Some s => om_evals s = [[8]; [-4]; [4]; [8]]%Z
                | None => False
                end
   | None => False
   end).
Proof.
  split; [apply C119_hgs_trimming|]. split; [reflexivity|].
  split; [vm_compute; repeat split; reflexivity|]. split; [vm_compute; reflexivity|]. split; [vm_compute; repeat split; reflexivity|].
  vm_compute. reflexivity.
Qed.
