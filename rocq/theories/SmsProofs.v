(** Proofs about SMS-EMOA. *)
From Verif Require Import Spec Base DomModel DomProofs NDSortModel NDSortProofs VarModel VarProofs NsgaModel
  HvSpec HvModel HvExact MetModel MetProofs SpeaModel SpeaProofs SmsSpec SmsModel.
Local Open Scope nat_scope.

Section Lists.
  Context {A : Type}.
  Variable R : A -> A -> Prop.

  Lemma FOP_nth (l : list A) : ForallOrdPairs R l ->
    forall i j x y, i < j -> nth_error l i = Some x -> nth_error l j = Some y -> R x y.
  Proof.
    induction 1 as [|a l HF HO IH]; intros i j x y Hij Hi Hj; [destruct i; discriminate|].
    destruct j as [|j]; [lia|]. cbn in Hj. destruct i as [|i]; cbn in Hi.
    - injection Hi as <-. rewrite Forall_forall in HF. apply HF. eapply nth_error_In; eauto.
    - eapply (IH i j); eauto. lia.
  Qed.

  Lemma FOP_of_positions (l : list A) (d : A) (front : list nat) :
    (forall i j x y, i <> j -> nth_error l i = Some x -> nth_error l j = Some y -> R x y) ->
    NoDup front -> (forall i, In i front -> i < length l) ->
    ForallOrdPairs R (map (fun i => nth i l d) front).
  Proof.
    intros H. induction 1 as [|i front Hn ND IH]; intros HI; cbn; constructor.
    - apply Forall_forall. intros y Hy. apply in_map_iff in Hy. destruct Hy as (j & <- & Hj).
      apply (H i j); [intros ->; auto | |]; apply nth_error_nth'; apply HI; [left | right]; auto.
    - apply IH. intros j Hj. apply HI. now right.
  Qed.
End Lists.

Lemma separated_front ref (objs : list vec) (front : list nat) d :
  separated ref objs -> NoDup front -> (forall i, In i front -> i < length objs) ->
  separated ref (map (fun i => nth i objs d) front).
Proof.
  intros (H1 & H2) ND HI. split.
  - intros p Hp. apply in_map_iff in Hp. destruct Hp as (i & <- & Hi). apply H1. apply nth_In, HI, Hi.
  - apply FOP_of_positions; auto. intros i j x y Hij Ei Ej Hx Hy.
    destruct (Nat.lt_total i j) as [L|[->|L]]; [|lia|].
    + exact (FOP_nth _ objs H2 i j x y L Ei Ej Hx Hy).
    + pose proof (FOP_nth _ objs H2 j i y x L Ej Ei Hy Hx) as G. congruence.
Qed.

Lemma hv_conditions_front neg ref (objs : list vec) (front : list nat) d :
  hv_conditions neg ref objs -> NoDup front -> (forall i, In i front -> i < length objs) ->
  hv_conditions neg ref (map (fun i => nth i objs d) front).
Proof.
  intros (H0 & H1 & H2 & H3) ND HI.
  assert (HIn : forall o, In o (map (fun i => nth i objs d) front) -> In o objs).
  { intros o Ho. apply in_map_iff in Ho. destruct Ho as (i & <- & Hi). apply nth_In, HI, Hi. }
  split; [exact H0|]. split; [auto|]. split; [|auto].
  destruct H2 as [H2|H2]; [now left | right]. now apply separated_front.
Qed.

Lemma hv_total neg ref objs : hv_conditions neg ref objs ->
  exists v, compute neg ref objs = Some v /\ is_hypervolume ref objs v.
Proof.
  intros (H0 & H1 & H2 & H3). apply compute_exact_ties; auto.
  destruct H2 as [H2|H2]; [now left | right; now apply separated_ties].
Qed.

Lemma is_hypervolume_fun ref objs v w : is_hypervolume ref objs v -> is_hypervolume ref objs w -> v = w.
Proof.
  intros H H'. apply Z.le_antisymm; eapply hv_mono; eauto; intros p Hp; exists p; (split; [exact Hp|]);
    clear; induction p; constructor; auto; lia.
Qed.

Lemma without_spec {A} (l1 : list A) x l2 : without (length l1) (l1 ++ x :: l2) = l1 ++ l2.
Proof.
  unfold without. rewrite firstn_app, Nat.sub_diag, firstn_all, skipn_app, skipn_all2 by lia.
  replace (S (length l1) - length l1) with 1 by lia. cbn. now rewrite app_nil_r.
Qed.

Lemma without_split {A} i (l : list A) x : nth_error l i = Some x ->
  exists l1 l2, l = l1 ++ x :: l2 /\ length l1 = i /\ without i l = l1 ++ l2.
Proof.
  intros H. apply nth_error_split in H. destruct H as (l1 & l2 & -> & <-).
  exists l1, l2. split; [reflexivity|]. split; [reflexivity | apply without_spec].
Qed.

Lemma split_unique {A} (i : A) l1 : forall l2 m1 m2,
  l1 ++ i :: l2 = m1 ++ i :: m2 -> NoDup (l1 ++ i :: l2) -> l1 = m1 /\ l2 = m2.
Proof.
  induction l1 as [|a l1 IH]; intros l2 [|b m1] m2 E ND; cbn in E, ND.
  - now injection E as ->.
  - injection E as E1 E2. subst. inversion ND as [|? ? Hn]. exfalso. apply Hn. apply in_or_app. right. now left.
  - injection E as E1 E2. subst. inversion ND as [|? ? Hn]. exfalso. apply Hn. apply in_or_app. right. now left.
  - injection E as E1 E2. subst b. inversion ND; subst. destruct (IH l2 m1 m2 E2) as (-> & ->); auto.
Qed.

Lemma map_without {A B} (f : A -> B) i l : map f (without i l) = without i (map f l).
Proof. unfold without. now rewrite map_app, firstn_map, skipn_map. Qed.

Lemma without_length {A} i (l : list A) : i < length l -> length (without i l) = length l - 1.
Proof. intros H. unfold without. rewrite app_length, firstn_length, skipn_length. lia. Qed.

Lemma without_In {A} i (l : list A) x : In x (without i l) -> In x l.
Proof.
  unfold without. intros H. apply in_app_or in H.
  assert (G : forall n, In x (skipn n l) -> In x l) by (intros n Hn; rewrite <- (firstn_skipn n l); apply in_or_app; now right).
  destruct H as [H|H]; [|now apply G in H]. rewrite <- (firstn_skipn i l). apply in_or_app. now left.
Qed.

Lemma nodup_without i l : NoDup l -> NoDup (@without nat i l).
Proof.
  intros H. destruct (nth_error l i) as [x|] eqn:E.
  - apply without_split in E. destruct E as (l1 & l2 & -> & _ & ->). eapply NoDup_remove_1; eauto.
  - apply nth_error_None in E. unfold without. rewrite firstn_all2, skipn_all2 by lia. now rewrite app_nil_r.
Qed.

(** ---- the minimum ---- *)
Lemma min_contributor_spec l : forall best,
  exists c, In (min_contributor best l, c) (best :: l) /\ forall x d, In (x, d) (best :: l) -> (c <= d)%Z.
Proof.
  induction l as [|x l IH]; intros best; cbn [min_contributor].
  - exists (snd best). split; [left; destruct best; reflexivity|]. intros y d [E|[]]. subst best. cbn. lia.
  - set (b := if (snd x <? snd best)%Z then x else best).
    destruct (IH b) as (c & Hin & Hmin). exists c. split.
    + destruct Hin as [E|Hin]; [|right; right; exact Hin]. unfold b in E.
      destruct (snd x <? snd best)%Z; [right; left | left]; exact E.
    + assert (Hb : (c <= snd b)%Z) by (apply (Hmin (fst b)); left; destruct b; reflexivity).
      intros y d [E|[E|Hd]].
      * subst best. cbn in *. unfold b in Hb. cbn in Hb. destruct (snd x <? d)%Z eqn:C; [apply Z.ltb_lt in C|]; cbn in *; lia.
      * subst x. cbn in *. unfold b in Hb. cbn in Hb. destruct (d <? snd best)%Z eqn:C; [|apply Z.ltb_ge in C]; cbn in *; lia.
      * apply (Hmin y d). right. exact Hd.
Qed.

Lemma contributions_spec neg ref (objs : list vec) (front : list nat) d :
  hv_conditions neg ref objs -> NoDup front -> (forall i, In i front -> i < length objs) ->
  exists cs, hypervolume_contributions neg ref (map (fun i => nth i objs d) front) = Some cs /\
    length cs = length front /\
    forall k i c, nth_error front k = Some i -> nth_error cs k = Some c ->
      exists l1 l2 v v', front = l1 ++ i :: l2 /\ length l1 = k /\
        is_hypervolume ref (map (fun i => nth i objs d) front) v /\
        is_hypervolume ref (map (fun i => nth i objs d) (l1 ++ l2)) v' /\ c = (v - v')%Z.
Proof.
  intros HC ND HI. unfold hypervolume_contributions.
  destruct (hv_total _ _ _ (hv_conditions_front neg ref objs front d HC ND HI)) as (v & E & Hv). rewrite E.
  assert (T : forall k, exists h, compute neg ref (without k (map (fun i => nth i objs d) front)) = Some h /\
                is_hypervolume ref (map (fun i => nth i objs d) (without k front)) h).
  { intros k. rewrite <- map_without. apply hv_total. apply hv_conditions_front; auto.
    - now apply nodup_without.
    - intros i Hi. apply HI. eapply without_In; eauto. }
  destruct (comprehension_total (fun i => match compute neg ref (without i (map (fun i => nth i objs d) front)) with
                              | Some h => Some (v - h)%Z | None => None end)
              (seq 0 (length (map (fun i => nth i objs d) front)))) as (cs & Ec).
  { intros k _. destruct (T k) as (h & -> & _). eauto. }
  rewrite Ec. exists cs. split; [reflexivity|]. apply comprehension_spec in Ec.
  pose proof (Forall2_length' _ _ _ Ec) as L. rewrite seq_length, map_length in L. split; [auto|].
  intros k i c Hk Hc. apply Forall2_nth_error in Ec. destruct Ec as (_ & Ec).
  assert (Lk : k < length front) by (now apply nth_error_Some' in Hk).
  assert (Ek : nth_error (seq 0 (length (map (fun i => nth i objs d) front))) k = Some k).
  { rewrite map_length. rewrite (nth_error_nth' _ 0) by (now rewrite seq_length). now rewrite seq_nth. }
  specialize (Ec k k c Ek Hc). cbv beta in Ec. destruct (T k) as (h & Eh & Hh). rewrite Eh in Ec. injection Ec as <-.
  destruct (without_split k front i Hk) as (l1 & l2 & E1 & E2 & E3). rewrite E3 in Hh.
  exists l1, l2, v, h. repeat split; auto.
Qed.

Lemma objectives_of_map (pop : list member) front : (forall i, In i front -> i < length pop) ->
  objectives_of m_objectives pop front (map (objectives_at pop) front).
Proof.
  intros H. induction front as [|i front IH]; cbn; constructor.
  - exists (nth i pop (mk_member [] [])). split; [apply nth_error_nth', H; now left | reflexivity].
  - apply IH. intros j Hj. apply H. now right.
Qed.

Lemma objectives_of_fun (pop : list member) front os : objectives_of m_objectives pop front os ->
  os = map (objectives_at pop) front.
Proof.
  induction 1 as [|i o front os (x & Ex & <-) H IH]; cbn; [reflexivity|]. rewrite <- IH. f_equal.
  unfold objectives_at. now rewrite (nth_error_nth _ _ _ Ex).
Qed.

Lemma objectives_at_nth pop i : objectives_at pop i = nth i (map m_objectives pop) [].
Proof. unfold objectives_at. symmetry. exact (map_nth m_objectives pop (mk_member [] []) i). Qed.

Lemma reduce_spec neg ref iter (pop : list member) :
  (forall x l, Permutation (iter x l) l) -> pop <> [] ->
  hv_conditions neg ref (map m_objectives pop) ->
  exists fronts worst i c,
    reduce_population neg ref iter pop = Some (without i pop) /\
    split_into_fronts m_objectives pop (fronts ++ [worst]) /\ In i worst /\
    contribution ref m_objectives pop worst i c /\
    (forall j c', In j worst -> contribution ref m_objectives pop worst j c' -> (c <= c')%Z).
Proof.
  intros Hit Hne HC. unfold reduce_population.
  assert (HD : all_dim (length ref) (objectives_at pop) (seq 0 (length pop))).
  { intros i Hi. apply in_seq in Hi. rewrite objectives_at_nth. destruct HC as (_ & HC & _). apply HC.
    apply nth_In. rewrite map_length. lia. }
  destruct (smsemoa_nd_sort_ok (objectives_at pop) (length ref) iter (seq 0 (length pop)) Hit (seq_NoDup _ _) HD)
    as (fronts & -> & HP & HN & HF).
  destruct (rev fronts) as [|worst rfronts] eqn:Er.
  { apply (f_equal (@rev _)) in Er. rewrite rev_involutive in Er. cbn in Er. subst fronts. cbn in HP.
    apply Permutation_nil in HP. destruct pop; [congruence | discriminate HP]. }
  assert (Ef : fronts = rev rfronts ++ [worst]).
  { rewrite <- (rev_involutive fronts), Er. reflexivity. }
  assert (HIn : forall i, In i worst -> i < length pop).
  { intros i Hi. assert (In i (seq 0 (length pop))); [|rewrite in_seq in H; lia].
    eapply Permutation_in; [exact HP|]. rewrite Ef, concat_app. apply in_or_app. right. cbn. now rewrite app_nil_r. }
  assert (ND : NoDup worst).
  { assert (N : NoDup (concat fronts)) by (eapply Permutation_NoDup; [symmetry; exact HP | apply seq_NoDup]).
    rewrite Ef, concat_app in N. apply NoDup_app_inv in N. destruct N as (_ & N & _). cbn in N. now rewrite app_nil_r in N. }
  assert (Wne : worst <> []).
  { rewrite Forall_forall in HN. apply HN. rewrite Ef. apply in_or_app. right. now left. }
  destruct (contributions_spec neg ref (map m_objectives pop) worst [] HC ND) as (cs & Ec & Lc & Hc).
  { intros i Hi. rewrite map_length. auto. }
  assert (EM : map (objectives_at pop) worst = map (fun i => nth i (map m_objectives pop) []) worst).
  { apply map_ext. intros i. apply objectives_at_nth. }
  rewrite EM, Ec.
  assert (CW : forall k i c, nth_error worst k = Some i -> nth_error cs k = Some c -> contribution ref m_objectives pop worst i c).
  { intros k i c Hk Hkc. destruct (Hc k i c Hk Hkc) as (l1 & l2 & v & v' & E1 & E2 & Hv & Hv' & Ecv).
    exists l1, l2, (map (objectives_at pop) worst), (map (objectives_at pop) (l1 ++ l2)), v, v'.
    split; [exact E1|]. split; [now apply objectives_of_map|].
    split; [apply objectives_of_map; intros j Hj; apply HIn; rewrite E1; apply in_app_or in Hj; apply in_or_app; cbn; tauto|].
    split; [now rewrite EM|]. split; [|exact Ecv].
    erewrite map_ext; [exact Hv'|]. intros j. apply objectives_at_nth. }
  assert (CU : forall i c c', contribution ref m_objectives pop worst i c -> contribution ref m_objectives pop worst i c' -> c = c').
  { intros i c c' (l1 & l2 & o & o' & v & v' & E1 & O1 & O2 & V1 & V2 & ->)
      (m1 & m2 & p & p' & w & w' & E1' & O1' & O2' & V1' & V2' & ->).
    apply objectives_of_fun in O1, O2, O1', O2'. subst o o' p p'.
    assert (l1 = m1 /\ l2 = m2) as (<- & <-).
    { apply (split_unique i); congruence. }
    f_equal; eapply is_hypervolume_fun; eauto. }
  destruct (combine worst cs) as [|p ps] eqn:Eb.
  { destruct worst; [congruence|]. destruct cs; discriminate. }
  destruct (min_contributor_spec ps p) as (c & Hin & Hmin). rewrite <- Eb in Hin, Hmin.
  exists (rev rfronts), worst, (min_contributor p ps), c. split; [reflexivity|].
  assert (G : forall j c', In (j, c') (combine worst cs) -> exists k, nth_error worst k = Some j /\ nth_error cs k = Some c').
  { intros j c' Hj. apply In_nth_error in Hj. destruct Hj as (k & Hk). exists k.
    clear - Hk. revert cs k Hk. induction worst as [|a l IH]; intros [|b cs] [|k]; cbn; intros H; try discriminate.
    - injection H as -> ->. auto.
    - apply IH in H. exact H. }
  destruct (G _ _ Hin) as (k & K1 & K2).
  split; [|split; [now apply nth_error_In in K1|split]].
  - rewrite <- Ef. split; [exact HP|]. split; [exact HN|].
    intros n front i Hn. rewrite (HF n front i Hn). rewrite in_seq.
    assert (OA : forall j o, obj_at m_objectives pop j o <-> j < length pop /\ o = objectives_at pop j).
    { intros j o. split.
      - intros (x & Ex & <-). split; [now apply nth_error_Some' in Ex|]. unfold objectives_at. now rewrite (nth_error_nth _ _ _ Ex).
      - intros (Hj & ->). exists (nth j pop (mk_member [] [])). split; [now apply nth_error_nth' | reflexivity]. }
    split.
    + intros (Hi & Ho & HD'). split; [lia|]. split; [exact Ho|]. intros j oj oi Hj Hjn Hoi.
      apply OA in Hj, Hoi. destruct Hj as (Hj & ->), Hoi as (_ & ->). apply HD'; [rewrite in_seq; lia | exact Hjn].
    + intros (Hi & Ho & HD'). split; [lia|]. split; [exact Ho|]. intros j Hj Hjn. rewrite in_seq in Hj.
      apply (HD' j); [apply OA; split; [lia | reflexivity] | exact Hjn | apply OA; auto].
  - eapply CW; eauto.
  - intros j c' Hj Hc'. apply In_nth_error in Hj. destruct Hj as (kj & Kj).
    destruct (nth_error cs kj) as [cj|] eqn:Ecj.
    2:{ apply nth_error_None in Ecj. apply nth_error_Some' in Kj. lia. }
    assert (c' = cj) as -> by (eapply CU; eauto).
    apply (Hmin j cj). clear - Kj Ecj. revert cs kj Kj Ecj. induction worst as [|a l IH]; intros [|b cs] [|k]; cbn; intros H H'; try discriminate.
    + injection H as ->. injection H' as ->. now left.
    + right. eapply IH; eauto.
Qed.

(** ---- the hypervolume never decreases ---- *)
(** In a split with a worst front [worst] after other fronts, every member of [worst] is dominated
    by somebody in an earlier front. *)
Lemma worst_dominated (pop : list member) d fronts worst i :
  all_dim d m_objectives pop ->
  split_into_fronts m_objectives pop (fronts ++ [worst]) -> fronts <> [] -> In i worst ->
  exists j, j <> i /\ j < length pop /\ pareto_dom (objectives_at pop j) (objectives_at pop i).
Proof.
  intros HD (HP & HN & HF) Hne Hi.
  destruct (rev fronts) as [|prev rf] eqn:Er.
  { apply (f_equal (@rev _)) in Er. rewrite rev_involutive in Er. contradiction. }
  assert (Ef : fronts = rev rf ++ [prev]) by (rewrite <- (rev_involutive fronts), Er; reflexivity).
  set (k := length (rev rf)).
  assert (Ek : nth_error (fronts ++ [worst]) k = Some prev).
  { rewrite Ef. unfold k. rewrite <- app_assoc. rewrite nth_error_app2 by lia. now rewrite Nat.sub_diag. }
  assert (Hip : i < length pop).
  { assert (In i (seq 0 (length pop))); [|rewrite in_seq in H; lia].
    eapply Permutation_in; [exact HP|]. rewrite concat_app. apply in_or_app. right. cbn. now rewrite app_nil_r. }
  assert (ND : NoDup (concat (fronts ++ [worst]))) by (eapply Permutation_NoDup; [symmetry; exact HP | apply seq_NoDup]).
  rewrite concat_app in ND. apply NoDup_app_inv in ND. destruct ND as (_ & _ & DJ).
  assert (Hin : ~ In i prev).
  { intros H. apply (DJ i); [rewrite Ef, concat_app; apply in_or_app; right; cbn; now rewrite app_nil_r | cbn; now rewrite app_nil_r]. }
  assert (Efn : firstn k (fronts ++ [worst]) = rev rf).
  { rewrite Ef, <- app_assoc. unfold k. rewrite firstn_app, Nat.sub_diag, firstn_all. cbn. now rewrite app_nil_r. }
  assert (Hic : ~ In i (concat (rev rf))).
  { intros H. apply (DJ i); [rewrite Ef, concat_app; apply in_or_app; now left | cbn; now rewrite app_nil_r]. }
  (* decide *)
  destruct (existsb (fun j => negb (existsb (Nat.eqb j) (concat (rev rf))) && dominates (objectives_at pop j) (objectives_at pop i))
              (seq 0 (length pop))) eqn:EX.
  - apply existsb_exists in EX. destruct EX as (j & Hj & HB). rewrite in_seq in Hj. apply andb_true_iff in HB.
    destruct HB as (_ & HB).
    assert (L : forall n, n < length pop -> length (objectives_at pop n) = d).
    { intros n Hn. apply HD. now apply nth_In. }
    apply dominates_spec in HB; [|rewrite !L; lia].
    exists j. split; [|split; [lia | exact HB]]. intros ->. exact (pareto_dom_irrefl _ HB).
  - exfalso. apply Hin. apply (HF k prev i Ek). rewrite Efn. split; [exact Hip|]. split; [exact Hic|].
    intros j oj oi (x & Ex & <-) Hj (y & Ey & <-) Hd.
    assert (Hjp : j < length pop) by (now apply nth_error_Some' in Ex).
    assert (EX' : existsb (fun j => negb (existsb (Nat.eqb j) (concat (rev rf))) && dominates (objectives_at pop j) (objectives_at pop i))
              (seq 0 (length pop)) = true); [|congruence].
    apply existsb_exists. exists j. split; [rewrite in_seq; lia|]. apply andb_true_iff. split.
    + apply negb_true_iff. apply not_true_iff_false. intros H. apply existsb_exists in H. destruct H as (z & Hz & Ez).
      apply Nat.eqb_eq in Ez. subst z. contradiction.
    + apply dominates_spec.
      * unfold objectives_at. rewrite !HD; auto using nth_In.
      * unfold objectives_at. now rewrite (nth_error_nth _ _ _ Ex), (nth_error_nth _ _ _ Ey).
Qed.

Lemma map_seq_self (pop : list member) : map (objectives_at pop) (seq 0 (length pop)) = map m_objectives pop.
Proof.
  apply nth_ext with (d := []) (d' := []); [now rewrite !map_length, seq_length|].
  intros n Hn. rewrite map_length, seq_length in Hn.
  rewrite (nth_indep _ [] (objectives_at pop 0)) by (now rewrite map_length, seq_length).
  rewrite map_nth, seq_nth by lia. apply objectives_at_nth.
Qed.

(** One reduction of [pop ++ [new]] does not lose hypervolume compared with [pop]. *)
Lemma reduce_monotone neg ref iter (pop : list member) (new : member) pop' v v' :
  (forall x l, Permutation (iter x l) l) ->
  hv_conditions neg ref (map m_objectives (pop ++ [new])) ->
  reduce_population neg ref iter (pop ++ [new]) = Some pop' ->
  is_hypervolume ref (map m_objectives pop) v -> is_hypervolume ref (map m_objectives pop') v' -> (v <= v')%Z.
Proof.
  intros Hit HC HR Hv Hv'.
  destruct (reduce_spec neg ref iter (pop ++ [new]) Hit) as (fronts & worst & i & c & E & HS & Hi & Hc & Hmin); [destruct pop; discriminate | exact HC|].
  rewrite E in HR. injection HR as <-.
  set (all := pop ++ [new]) in *.
  assert (HD : all_dim (length ref) m_objectives all).
  { intros m Hm. destruct HC as (_ & HC & _). apply HC. now apply in_map. }
  pose proof HS as (HP & HN & HF).
  assert (Hip : i < length all).
  { assert (In i (seq 0 (length all))); [|rewrite in_seq in H; lia].
    eapply Permutation_in; [exact HP|]. rewrite concat_app. apply in_or_app. right. cbn. now rewrite app_nil_r. }
  destruct fronts as [|f fs].
  - (* a single front: least contributor among all *)
    cbn in HP. rewrite app_nil_r in HP.
    assert (Hnew : In (length pop) worst).
    { eapply Permutation_in; [symmetry; exact HP|]. rewrite in_seq. unfold all. rewrite app_length. cbn. lia. }
    assert (ND : NoDup worst) by (eapply Permutation_NoDup; [symmetry; exact HP | apply seq_NoDup]).
    assert (HV : forall j, In j worst -> exists l1 l2, worst = l1 ++ j :: l2 /\
       (forall w, is_hypervolume ref (map (objectives_at all) (l1 ++ l2)) w <-> is_hypervolume ref (map m_objectives (without j all)) w)).
    { intros j Hj. apply in_split in Hj. destruct Hj as (l1 & l2 & Ew). exists l1, l2. split; [exact Ew|].
      assert (Hjp : j < length all).
      { assert (In j (seq 0 (length all))); [|rewrite in_seq in H; lia]. eapply Permutation_in; [exact HP|]. rewrite Ew. apply in_or_app. right. now left. }
      destruct (nth_error all j) as [x|] eqn:Ex; [|apply nth_error_None in Ex; lia].
      destruct (without_split j all x Ex) as (m1 & m2 & E1 & E2 & ->).
      assert (PP : Permutation (map (objectives_at all) (l1 ++ l2)) (map m_objectives (m1 ++ m2))).
      { apply Permutation_cons_inv with (a := objectives_at all j).
        transitivity (map (objectives_at all) worst).
        { rewrite Ew, !map_app. cbn. apply Permutation_middle. }
        transitivity (map m_objectives all); [rewrite <- map_seq_self; now apply Permutation_map|].
        rewrite E1, !map_app. cbn [map]. unfold objectives_at.
        replace (nth j (m1 ++ x :: m2) (mk_member [] [])) with x; [symmetry; apply Permutation_middle|].
        rewrite <- E1. symmetry. now apply nth_error_nth. }
      intros w. split; intros (cells & Q1 & Q2 & Q3); exists cells; (split; [exact Q1|]); (split; [|exact Q3]);
        intros z; rewrite Q2; unfold cell_in; split; intros (B1 & p & B2 & B3); (split; [exact B1|]); exists p; (split; [|exact B3]);
        (eapply Permutation_in; [|exact B2]); [exact PP | symmetry; exact PP | symmetry; exact PP | exact PP]. }
    destruct (HV (length pop) Hnew) as (n1 & n2 & En & Hn).
    assert (Wn : without (length pop) all = pop).
    { unfold all. rewrite without_spec. now rewrite app_nil_r. }
    rewrite Wn in Hn.
    destruct Hc as (l1 & l2 & os & os' & w & w' & E1 & O1 & O2 & V1 & V2 & ->).
    destruct (HV i Hi) as (m1 & m2 & Em & Hm).
    apply objectives_of_fun in O1, O2. subst os os'.
    assert (l1 = m1 /\ l2 = m2) as (<- & <-).
    { apply (split_unique i); congruence. }
    assert (v' = w') as -> by (eapply is_hypervolume_fun; [exact Hv' | apply Hm; exact V2]).
    assert (G : (w - w' <= w - v)%Z); [|lia].
    apply (Hmin (length pop)); [exact Hnew|].
    exists n1, n2, (map (objectives_at all) worst), (map (objectives_at all) (n1 ++ n2)), w, v.
    assert (HIn : forall j, In j worst -> j < length all).
    { intros j Hj. assert (In j (seq 0 (length all))); [|rewrite in_seq in H; lia]. eapply Permutation_in; [exact HP | exact Hj]. }
    split; [exact En|]. split; [now apply objectives_of_map|].
    split; [apply objectives_of_map; intros j Hj; apply HIn; rewrite En; apply in_app_or in Hj; apply in_or_app; cbn; tauto|].
    split; [exact V1|]. split; [apply Hn; exact Hv | reflexivity].
  - (* the removed one is dominated by somebody who stays *)
    destruct (worst_dominated all (length ref) (f :: fs) worst i HD HS ltac:(discriminate) Hi) as (j & Hji & Hj & HDom).
    eapply hv_mono; [exact Hv | exact Hv'|].
    assert (REFL : forall p, Forall2 Z.le p p) by (intros p; induction p; constructor; auto; lia).
    destruct (nth_error all i) as [x|] eqn:Ex; [|apply nth_error_None in Ex; lia].
    destruct (without_split i all x Ex) as (m1 & m2 & E1 & E2 & ->).
    intros p Hp. assert (Hpa : In p (map m_objectives all)) by (unfold all; rewrite map_app; apply in_or_app; now left).
    rewrite E1, map_app in Hpa. cbn in Hpa. apply in_app_or in Hpa.
    assert (K : In p (map m_objectives (m1 ++ m2)) \/ p = m_objectives x).
    { destruct Hpa as [H|[H|H]]; [left | right; auto | left]; rewrite map_app; apply in_or_app; auto. }
    destruct K as [K| ->]; [exists p; auto|].
    exists (objectives_at all j). split.
    + assert (Ej : nth_error all j = Some (nth j all (mk_member [] []))) by (now apply nth_error_nth').
      apply in_map_iff. exists (nth j all (mk_member [] [])). split; [reflexivity|].
      rewrite E1 in Ej at 1. destruct (Nat.lt_ge_cases j (length m1)) as [L|L].
      * rewrite nth_error_app1 in Ej by exact L. apply in_or_app. left. eapply nth_error_In; eauto.
      * rewrite nth_error_app2 in Ej by exact L. destruct (j - length m1) as [|n] eqn:En; [lia|].
        cbn in Ej. apply in_or_app. right. eapply nth_error_In; eauto.
    + assert (objectives_at all i = m_objectives x) as <- by (unfold objectives_at; now rewrite (nth_error_nth _ _ _ Ex)).
      apply HDom.
Qed.

(** ---- the run ---- *)
Lemma sms_objectives_spec f fa N pop tr :
  sms_objectives f fa N pop tr =
  (map (fun v => mk_member v (match fa with Some m => match lookup v m with Some o => o | None => f v end | None => f v end)) pop,
   (match rev pop with [] => 0 | v :: _ => if hit fa v then 0 else N end,
    tr ++ filter (fun v => negb (hit fa v)) pop)).
Proof.
  unfold sms_objectives.
  induction pop as [|v pop IH] using rev_ind; [cbn; now rewrite app_nil_r|].
  rewrite fold_left_app, IH. cbn [fold_left]. rewrite spea_evaluate_step. cbn [fst snd].
  rewrite map_app, filter_app, rev_app_distr. cbn [rev app map filter].
  destruct (hit fa v); cbn [negb]; rewrite ?app_nil_r, ?app_assoc; reflexivity.
Qed.

Section Run.
  Variable P : params.
  Variable neg : Z.
  Variable ref : vec.
  Hypothesis box_ok : valid_box (p_dims P).
  Hypothesis trim_ok : forall v, in_box (p_dims P) v -> in_box (p_dims P) (p_trim P v).
  Hypothesis ref_dim : 1 <= length ref <= 3.
  Hypothesis f_dim : forall v, length (p_f P v) = length ref.
  Hypothesis f_low : length ref = 3 -> forall v, Forall2 (fun a r => (neg <= a - r)%Z) (p_f P v) ref.
  Hypothesis eps_ok : (0 <= p_epsilon P)%Z.
  Hypothesis iter_ok : forall x l, Permutation (p_iter P x l) l.
  Variable fa : option (list (vec * vec)).
  Hypothesis fa_ok : forall m k o, fa = Some m -> lookup k m = Some o -> o = p_f P k.
  Variable N : nat.
  Hypothesis N2 : 2 <= N.

  Definition ok_member (m : member) : Prop :=
    in_box (p_dims P) (m_value m) /\ m_objectives m = p_f P (m_value m).

  (** [g] individuals have been generated. *)
  Definition sms_inv (g : nat) (s : sms_state) : Prop :=
    length (sms_individuals s) = N /\ Forall ok_member (sms_individuals s) /\
    (fa = None -> sms_cost s = N + g * N /\ length (sms_evals s) = N + g).

  Lemma generate_ok D pop : good_sample N D -> length pop = N -> Forall ok_member pop ->
    exists v, generate P D pop = Some v /\ in_box (p_dims P) v.
  Proof.
    intros (H1 & H2 & H3) HL HF. unfold generate. destruct (sample2 D) as [i j]. cbn [fst snd] in *.
    destruct (i =? j) eqn:E; [apply Nat.eqb_eq in E; contradiction|].
    destruct (nth_error pop i) as [a|] eqn:Ea; [|apply nth_error_None in Ea; lia].
    destruct (nth_error pop j) as [b|] eqn:Eb; [|apply nth_error_None in Eb; lia].
    rewrite Forall_forall in HF. destruct (HF a) as (Va & _); [eapply nth_error_In; eauto|].
    destruct (HF b) as (Vb & _); [eapply nth_error_In; eauto|].
    destruct (crossover_genes (p_raw_a P) (p_raw_b P) (g_skip D) (g_rand D) (g_swap D) (p_half P) (p_epsilon P)
                (g_r0 D) (p_crossover_rate P) (g_pick D) (m_value a) (m_value b) (p_dims P) eps_ok box_ok)
      as (x & -> & _ & _ & _ & Bx).
    { now apply in_box_length in Va. } { now apply in_box_length in Vb. }
    destruct (mutate_in_box (p_raw P) (g_sel D) (g_rnd D) (p_mutation_rate P) x (p_dims P) box_ok (Bx Va Vb)) as (y & -> & By).
    exists (p_trim P y). split; [reflexivity|]. auto.
  Qed.

  Lemma evaluated_ok v : in_box (p_dims P) v ->
    ok_member (mk_member v (match fa with Some m => match lookup v m with Some o => o | None => p_f P v end | None => p_f P v end)).
  Proof.
    intros Hv. split; [exact Hv|]. cbn [m_value m_objectives].
    destruct fa as [m|] eqn:Efa; [|reflexivity]. destruct (lookup v m) as [o|] eqn:El; [|reflexivity].
    now apply (fa_ok m v o eq_refl).
  Qed.

  Lemma ok_conditions pop : Forall ok_member pop -> hv_conditions neg ref (map m_objectives pop).
  Proof.
    intros HF. assert (HO : forall o, In o (map m_objectives pop) -> exists v, o = p_f P v).
    { intros o Ho. apply in_map_iff in Ho. destruct Ho as (m & <- & Hm). rewrite Forall_forall in HF.
      destruct (HF m Hm) as (_ & ->). eauto. }
    split; [intros E; rewrite E in ref_dim; cbn in ref_dim; lia|].
    split; [intros o Ho; destruct (HO o Ho) as (v & ->); auto|].
    split; [left; lia|]. intros H3 o Ho. destruct (HO o Ho) as (v & ->). apply f_low. lia.
  Qed.

  Lemma generation_ok g D s : good_sample N D -> sms_inv g s ->
    exists s', sms_generation P neg ref fa D s = Some s' /\ sms_inv (S g) s' /\
      forall v v', is_hypervolume ref (map m_objectives (sms_individuals s)) v ->
        is_hypervolume ref (map m_objectives (sms_individuals s')) v' -> (v <= v')%Z.
  Proof.
    intros HD (I1 & I2 & I3). unfold sms_generation.
    destruct (generate_ok D (sms_individuals s) HD I1 I2) as (v & -> & Bv). rewrite sms_objectives_spec.
    cbn [map rev app filter].
    set (new := mk_member v _). assert (On : ok_member new) by (apply evaluated_ok; exact Bv).
    assert (OA : Forall ok_member (sms_individuals s ++ [new])) by (apply Forall_app; auto).
    destruct (reduce_spec neg ref (p_iter P) (sms_individuals s ++ [new]) iter_ok) as (fronts & worst & i & c & E & HS & Hi & _).
    { destruct (sms_individuals s); discriminate. } { now apply ok_conditions. }
    rewrite E. eexists. split; [reflexivity|]. cbn [sms_individuals sms_cost sms_evals].
    assert (Hip : i < length (sms_individuals s ++ [new])).
    { destruct HS as (HP & _). assert (In i (seq 0 (length (sms_individuals s ++ [new])))); [|rewrite in_seq in H; lia].
      eapply Permutation_in; [exact HP|]. rewrite concat_app. apply in_or_app. right. cbn. now rewrite app_nil_r. }
    split; [split; [|split]|]; cbn [sms_individuals sms_cost sms_evals].
    - rewrite without_length by exact Hip. rewrite app_length. cbn. lia.
    - rewrite Forall_forall in OA |- *. intros m Hm. apply OA. eapply without_In; eauto.
    - intros Hfa. destruct (I3 Hfa) as (C1 & C2). rewrite Hfa. cbn [hit negb filter].
      rewrite app_length, C2, I1, C1. cbn. lia.
    - intros w w' Hw Hw'. eapply reduce_monotone; eauto. now apply ok_conditions.
  Qed.

  Lemma hv_exists pop : Forall ok_member pop -> exists v, is_hypervolume ref (map m_objectives pop) v.
  Proof. intros H. destruct (hv_total _ _ _ (ok_conditions pop H)) as (v & _ & Hv). eauto. Qed.

  Lemma generations_ok Ds : forall g s, Forall (good_sample N) Ds -> sms_inv g s ->
    exists s', sms_generations P neg ref fa Ds s = Some s' /\ sms_inv (g + length Ds) s' /\
      forall v v', is_hypervolume ref (map m_objectives (sms_individuals s)) v ->
        is_hypervolume ref (map m_objectives (sms_individuals s')) v' -> (v <= v')%Z.
  Proof.
    induction Ds as [|D Ds IH]; intros g s HD HI; cbn [sms_generations length].
    - exists s. rewrite Nat.add_0_r. split; [reflexivity|]. split; [exact HI|]. intros v v' H H'.
      rewrite (is_hypervolume_fun _ _ _ _ H H'). lia.
    - inversion HD; subst. destruct (generation_ok g D s) as (s1 & -> & HI1 & M1); auto.
      destruct (IH (S g) s1) as (s' & -> & HI' & M2); auto. exists s'. split; [reflexivity|].
      split; [replace (g + S (length Ds)) with (S g + length Ds) by lia; exact HI'|].
      intros v v' H H'. destruct HI1 as (_ & F1 & _). destruct (hv_exists _ F1) as (w & Hw).
      specialize (M1 _ _ H Hw). specialize (M2 _ _ Hw H'). lia.
  Qed.

  Lemma steps_ok E Ds : forall g s, Forall (fun D => forall i, i < E -> good_sample N (D i)) Ds -> sms_inv g s ->
    exists s', sms_steps P neg ref fa E Ds s = Some s' /\ sms_inv (g + length Ds * E) s' /\
      forall v v', is_hypervolume ref (map m_objectives (sms_individuals s)) v ->
        is_hypervolume ref (map m_objectives (sms_individuals s')) v' -> (v <= v')%Z.
  Proof.
    induction Ds as [|D Ds IH]; intros g s HD HI; cbn [sms_steps length].
    - exists s. rewrite Nat.add_0_r. split; [reflexivity|]. split; [exact HI|]. intros v v' H H'.
      rewrite (is_hypervolume_fun _ _ _ _ H H'). lia.
    - inversion HD; subst. unfold sms_step at 1.
      destruct (generations_ok (map D (seq 0 E)) g s) as (s1 & -> & HI1 & M1); auto.
      { apply Forall_forall. intros d Hd. apply in_map_iff in Hd. destruct Hd as (i & <- & Hi). rewrite in_seq in Hi. apply H1. lia. }
      rewrite map_length, seq_length in HI1.
      destruct (IH (g + E) s1) as (s' & -> & HI' & M2); auto. exists s'. split; [reflexivity|].
      split; [replace (g + S (length Ds) * E) with (g + E + length Ds * E) by lia; exact HI'|].
      intros v v' H H'. destruct HI1 as (_ & F1 & _). destruct (hv_exists _ F1) as (w & Hw).
      specialize (M1 _ _ H Hw). specialize (M2 _ _ Hw H'). lia.
  Qed.

  Lemma init_ok population : length population = N -> Forall (in_box (p_dims P)) population ->
    sms_inv 0 (sms_init P fa population).
  Proof.
    intros HL HB. unfold sms_init. rewrite sms_objectives_spec. split; [|split]; cbn [sms_individuals sms_cost sms_evals].
    - now rewrite !map_length.
    - apply Forall_forall. intros m Hm. apply in_map_iff in Hm. destruct Hm as (v & <- & Hv).
      apply in_map_iff in Hv. destruct Hv as (u & <- & Hu). rewrite Forall_forall in HB. apply evaluated_ok; auto.
    - intros Hfa. rewrite Hfa. cbn [hit negb]. rewrite filter_all by auto. rewrite app_length, map_length. cbn.
      destruct (rev (map (p_trim P) population)) as [|v r] eqn:Er.
      + apply (f_equal (@length vec)) in Er. rewrite rev_length, map_length in Er. cbn in Er. lia.
      + lia.
  Qed.
End Run.

Lemma sms_run_ok (P : params) (neg : Z) (ref : vec) (fa : option (list (vec * vec))) (E : nat) (population : list vec)
      (Ds Es : list (nat -> sms_draws)) :
  valid_box (p_dims P) -> (forall v, in_box (p_dims P) v -> in_box (p_dims P) (p_trim P v)) ->
  1 <= length ref <= 3 -> (forall v, length (p_f P v) = length ref) ->
  (length ref = 3 -> forall v, Forall2 (fun a r => (neg <= a - r)%Z) (p_f P v) ref) ->
  (0 <= p_epsilon P)%Z -> (forall x l, Permutation (p_iter P x l) l) ->
  (forall m k o, fa = Some m -> lookup k m = Some o -> o = p_f P k) ->
  2 <= length population -> Forall (in_box (p_dims P)) population ->
  Forall (fun D => forall i, i < E -> good_sample (length population) (D i)) (Ds ++ Es) ->
  exists s s', sms_run P neg ref fa E population Ds = Some s /\ sms_run P neg ref fa E population (Ds ++ Es) = Some s' /\
    sms_inv P fa (length population) (length Ds * E) s /\
    exists v v', is_hypervolume ref (map m_objectives (sms_individuals s)) v /\
      is_hypervolume ref (map m_objectives (sms_individuals s')) v' /\ (v <= v')%Z.
Proof.
  intros H1 H2 H3 H4 H5 H6 H7 H8 H9 H10 HD. apply Forall_app in HD. destruct HD as (HD & HE).
  assert (I0 : sms_inv P fa (length population) 0 (sms_init P fa population)) by (eapply init_ok; eauto).
  edestruct (steps_ok P neg ref) with (E := E) (Ds := Ds) as (s & Es1 & Is & _); eauto.
  edestruct (steps_ok P neg ref) with (E := E) (Ds := Es) as (s' & Es2 & Is' & M); eauto.
  exists s, s'. unfold sms_run. split; [exact Es1|]. split.
  { clear - Es1 Es2. revert Es1. generalize (sms_init P fa population) as s0. induction Ds as [|D Ds IH]; intros s0 E1; cbn in *.
    - injection E1 as ->. exact Es2.
    - destruct (sms_step P neg ref fa E D s0); [|discriminate]. now apply IH. }
  split; [exact Is|].
  destruct (hv_exists P neg ref H3 H4 H5 _ H9 _ (proj1 (proj2 Is))) as (v & Hv).
  destruct (hv_exists P neg ref H3 H4 H5 _ H9 _ (proj1 (proj2 Is'))) as (v' & Hv').
  exists v, v'. split; [exact Hv|]. split; [exact Hv'|]. eapply M; eauto.
Qed.

Lemma sms_generation_is (P : params) (neg : Z) (ref : vec) (fa : option (list (vec * vec))) (D : sms_draws) (s s' : sms_state) :
  sms_generation P neg ref fa D s = Some s' ->
  exists v o, generate P D (sms_individuals s) = Some v /\
    (o = p_f P v \/ exists m, fa = Some m /\ lookup v m = Some o) /\
    reduce_population neg ref (p_iter P) (sms_individuals s ++ [mk_member v o]) = Some (sms_individuals s').
Proof.
  unfold sms_generation. destruct (generate P D (sms_individuals s)) as [v|]; [|discriminate].
  rewrite sms_objectives_spec. cbn [map].
  destruct (reduce_population _ _ _ _) as [pop|] eqn:E; [|discriminate]. intros [= <-].
  exists v. eexists. split; [reflexivity|]. split; [|exact E].
  destruct fa as [m|]; [|now left]. destruct (lookup v m) as [o|] eqn:El; [right; eauto | now left].
Qed.

Lemma sms_round (f : vec -> vec) (fa : option (list (vec * vec))) (N : nat) (pop trace : list vec) :
  let known v := exists m o, fa = Some m /\ lookup v m = Some o in
  exists evaluated charge,
    snd (sms_objectives f fa N pop trace) = (charge, trace ++ evaluated) /\
    (forall v, In v evaluated <-> In v pop /\ ~ known v) /\
    (fa = None -> evaluated = pop) /\
    (forall p v, pop = p ++ [v] -> known v -> charge = 0) /\
    (forall p v, pop = p ++ [v] -> ~ known v -> charge = N) /\
    ((forall v, In v pop -> ~ known v) -> pop <> [] -> (charge = length evaluated <-> N = length pop)).
Proof.
  intros known. rewrite sms_objectives_spec. cbn [snd]. eexists. eexists. split; [reflexivity|].
  assert (K : forall v, negb (hit fa v) = true <-> ~ known v).
  { intros v. unfold known. rewrite <- hit_known. destruct (hit fa v); cbn; intuition discriminate. }
  split; [intros v; rewrite filter_In, K; reflexivity|].
  split; [intros ->; apply filter_all; reflexivity|].
  split; [|split].
  - intros p v -> Hk; rewrite rev_app_distr; cbn [rev app]. apply hit_known in Hk. now rewrite Hk.
  - intros p v -> Hk; rewrite rev_app_distr; cbn [rev app]. apply K in Hk. destruct (hit fa v); [discriminate | reflexivity].
  - intros H Hne. rewrite filter_all by (intros v Hv; apply K, H, Hv).
    destruct (rev pop) as [|v r] eqn:E.
    + apply (f_equal (@rev vec)) in E. rewrite rev_involutive in E. contradiction.
    + assert (Hv : In v pop) by (apply in_rev; rewrite E; now left). apply H, K in Hv.
      destruct (hit fa v); [discriminate | reflexivity].
Qed.
