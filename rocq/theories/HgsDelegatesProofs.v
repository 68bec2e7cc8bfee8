(** Proofs about the delegates of HGS's nodes. *)
From Coq Require Import QArith Reals.
From Verif Require Import Spec Base DomModel DomProofs VarModel VarProofs NDSortModel NDSortProofs NsgaModel NsgaProofs HgsModel HgsSpec HgsNsgaModel HgsTotal
  SpeaSpec SpeaModel IbeaModel IbeaProofs SmsSpec SmsModel SmsProofs HgsDriversModel HgsDriversSpec HgsDriversProofs HgsDriversContracts.
Local Open Scope nat_scope.

Lemma unbeaten_nil f : unbeaten f [] [].
Proof. intros d v []. Qed.
Lemma unbeaten_perm f l d d' : unbeaten f l d -> Permutation d d' -> unbeaten f l d'.
Proof. intros H P x v Hx. apply H. now rewrite P. Qed.
Lemma members_perm l d d' : members l d -> Permutation d d' -> members l d'.
Proof. intros H P x Hx. apply H. now rewrite P. Qed.

Lemma collect_in {A B} (f : A -> option B) l : forall r, collect (map f l) = Some r -> forall y, In y r -> exists x, In x l /\ f x = Some y.
Proof.
  induction l as [|x l IH]; cbn; intros r E y Hy; [injection E as <-; destruct Hy|].
  destruct (f x) as [z|] eqn:Ex; [|discriminate]. destruct (collect (map f l)) as [r'|]; [|discriminate]. injection E as <-.
  destruct Hy as [<-|Hy]; [exists x; auto|]. destruct (IH r' eq_refl y Hy) as (x' & H1 & H2). exists x'. auto.
Qed.

Lemma nsga_unbeaten P D d d' pop dels : (forall v, length (p_f P v) = p_m P) -> (forall x l, Permutation (p_iter P x l) l) ->
  nd_good P d -> nd_final P D d = Some (d', pop) -> nd_delegates d' = Some dels -> unbeaten (p_f P) pop dels.
Proof.
  intros Hf Hi ((N & M & HN & I) & _) E Ed. unfold nd_final in E.
  destruct (first_front P (fst d)) as [front|] eqn:Ef; [|discriminate]. destruct (finish P (fst d)) as [(s' & out)|] eqn:Efi; [|discriminate].
  injection E as <- <-. unfold nd_delegates in Ed. cbn [snd] in Ed. apply some_inj in Ed. subst dels.
  destruct I as (Hg & _ & _ & _ & Har & _).
  destruct (calculate_objectives_ok P (fst d) Har (good_cached P _ Hg) (good_box P _ Hg)) as (Hg1 & _).
  unfold first_front in Ef. unfold finish in Efi. set (s1 := calculate_objectives P (fst d)) in *.
  assert (Hd : all_dim (p_m P) (NsgaModel.obj_at (individuals s1)) (seq 0 (length (individuals s1)))).
  { intros x Hx. apply in_seq in Hx. destruct (nth_error (individuals s1) x) as [ind|] eqn:X; [rewrite (obj_at_good P _ _ ind Hg1 X); apply Hf | apply nth_error_None in X; lia]. }
  destruct (nsgaii_nd_sort_ok _ (p_m P) (p_iter P) _ Hi (seq_NoDup _ _) Hd) as (fs & Hfs & _ & _ & HF). rewrite Hfs in Ef.
  assert (Out : forall v, In v out -> exists i ind, nth_error (individuals s1) i = Some ind /\ v = iv ind).
  { destruct (sort_and_select P s1) as [(surv & fit)|]; [|discriminate]. destruct (select_positions (individuals s1) surv) as [kept|] eqn:Ek; [|discriminate].
    injection Efi as _ <-. intros v Hv. apply in_map_iff in Hv. destruct Hv as (ind & <- & Hin). destruct (collect_in _ _ _ Ek ind Hin) as (i & _ & X). exists i, ind. auto. }
  destruct fs as [|f1 fs]; [injection Ef as <-; intros x v []|].
  destruct (select_positions (individuals s1) f1) as [l|] eqn:El; [|discriminate]. apply some_inj in Ef. subst front.
  intros x v Hx Hv. apply in_map_iff in Hx. destruct Hx as (ix & <- & Hix). destruct (collect_in _ _ _ El ix Hix) as (i & Hif & Ei).
  destruct (Out v Hv) as (j & iy & Ej & ->). apply (HF 0 f1 i eq_refl) in Hif. destruct Hif as (_ & _ & Hno).
  rewrite <- (obj_at_good P _ _ ix Hg1 Ei), <- (obj_at_good P _ _ iy Hg1 Ej). apply Hno; [|intros []].
  apply in_seq. apply nth_error_Some' in Ej. lia.
Qed.

Lemma ibea_unbeaten a D s s' pop dels : (forall v, length (p_f (ip (fst a)) v) = p_m (ip (fst a))) ->
  n_final ibea_node a D s = Some (s', pop) -> n_delegates ibea_node a s' = Some dels -> members pop dels /\ unbeaten (p_f (ip (fst a))) pop dels.
Proof.
  intros Hf E Ed. cbn [ibea_node n_final n_delegates] in E, Ed.
  assert (Ep : pop = map ib_v (ib_individuals s')).
  { unfold ibea_finish in E. destruct (ibea_select (fst a) _) as [(surv & fit)|]; [|discriminate]. injection E as <- <-. reflexivity. }
  subst pop. clear E. set (inds := ib_individuals s') in *.
  assert (Ne : inds <> []). { intros X. rewrite X in Ed. cbn in Ed. discriminate. }
  destruct (ibea_first_layer (p_f (ip (fst a))) (p_m (ip (fst a))) inds Hf Ne) as (layer & rest & El & Hl). rewrite El in Ed. apply some_inj in Ed. subst dels. split.
  - intros v Hv. apply in_map_iff in Hv. destruct Hv as (i & <- & Hi). apply in_map. now apply Hl.
  - intros d v Hd Hv. apply in_map_iff in Hd, Hv. destruct Hd as (i & <- & Hi). destruct Hv as (j & <- & Hj). apply Hl in Hi. destruct Hi as (_ & Hi). exact (Hi j Hj).
Qed.

Lemma sms_unbeaten b a D d d' pop dels : sms_setting b a -> sms_good a d ->
  n_final sms_node a D d = Some (d', pop) -> n_delegates sms_node a d' = Some dels -> members pop dels /\ unbeaten (p_f (sa_params a)) pop dels.
Proof.
  intros ((Eb & Ht & Hf & He & Hi) & _) (n & g & H2 & I) E Ed. cbn [sms_node n_final n_delegates] in E, Ed. injection E as <- <-.
  destruct I as (I1 & I2 & _).
  assert (Ne : sms_individuals (snd d) <> []) by (intros X; rewrite X in I1; cbn in I1; lia).
  destruct (sms_first_front (sa_params a) (sms_individuals (snd d)) Hf Hi I2 Ne) as (front & rest & Efr & Hfr). rewrite Efr in Ed. apply some_inj in Ed. subst dels.
  set (inds := sms_individuals (snd d)) in *.
  assert (Ob : forall i, i < length inds -> objectives_at inds i = p_f (sa_params a) (m_value (nth i inds (mk_member [] [])))).
  { intros i Hl. unfold objectives_at. rewrite Forall_forall in I2. destruct (I2 (nth i inds (mk_member [] []))) as (_ & ->); [now apply nth_In | reflexivity]. }
  unfold sms_finalized. fold inds. split.
  - intros v Hv. apply in_map_iff in Hv. destruct Hv as (i & <- & Hin). apply Hfr in Hin. apply in_map, nth_In, Hin.
  - intros x v Hx Hv. apply in_map_iff in Hx. destruct Hx as (i & <- & Hin). apply Hfr in Hin. destruct Hin as (Li & Hno).
    apply in_map_iff in Hv. destruct Hv as (m & <- & Hm). apply In_nth_error in Hm. destruct Hm as (j & Ej). assert (Lj := nth_error_Some' _ _ _ Ej).
    specialize (Hno j Lj). rewrite (Ob i Li), (Ob j Lj), (nth_error_nth _ _ _ Ej) in Hno. exact Hno.
Qed.
