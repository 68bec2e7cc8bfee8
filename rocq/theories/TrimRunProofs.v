(** Proofs for C119: trimmed vectors in runs of the drivers. *)
From Verif Require Import Spec Base DomModel NDSortModel VarModel VarProofs SortModel SortProofs NsgaModel NsgaProofs
  JgblModel JgblProofs MetModel MetProofs SpeaModel SmsModel IbeaModel NslsModel Nsga3Model OmopsoModel ImgaRunProofs TrimRunSpec.
From Coq Require Import QArith.
Local Open Scope nat_scope.

Lemma collect_in {A} (l : list (option A)) r : collect l = Some r -> forall a, In a r -> In (Some a) l.
Proof.
  intros E a Ha. apply collect_Forall2 in E. induction E as [|o b l r H E IH]; [destruct Ha|].
  destruct Ha as [->|Ha]; [left; assumption|right; auto].
Qed.
Lemma comprehension_in {A B} (f : A -> option B) l r : comprehension f l = Some r ->
  forall b, In b r -> exists a, In a l /\ f a = Some b.
Proof.
  intros E b Hb. apply comprehension_spec in E. induction E as [|x y l r H E IH]; [destruct Hb|].
  destruct Hb as [->|Hb]; [exists x; split; [left; reflexivity|exact H]|].
  destruct (IH Hb) as (a & Ha & Ea). exists a. split; [right; exact Ha|exact Ea].
Qed.
Lemma nth_or {A} (Q : A -> Prop) d l i : Q d -> (forall a, In a l -> Q a) -> Q (nth i l d).
Proof. intros Hd H. destruct (nth_in_or_default i l d) as [G|G]; [auto|rewrite G; exact Hd]. Qed.

Section Trim.
  Variable P : params.
  Hypothesis HT : rounds_genes (p_trim P).
  Definition tr_ok (v : vec) : Prop := p_trim P v = v.

  Lemma tr_trim v : tr_ok (p_trim P v).
  Proof. destruct HT as (t & I & E). unfold tr_ok. rewrite !E, map_map. apply map_ext. exact I. Qed.
  Lemma tr_nil : tr_ok [].
  Proof. destruct HT as (t & I & E). unfold tr_ok. rewrite E. reflexivity. Qed.
  Lemma tr_map_trim l v : In v (map (p_trim P) l) -> tr_ok v.
  Proof. intros H. apply in_map_iff in H as (w & <- & _). apply tr_trim. Qed.

  (** ---- NSGA-II ---- *)
  Definition pool_ok (l : list indiv) (tr : list vec) : Prop :=
    (forall i, In i l -> tr_ok (iv i)) /\ (forall v, In v tr -> tr_ok v).

  Lemma evaluate_fold l : forall done c ar tr, (forall i, In i l -> tr_ok (iv i)) -> pool_ok done tr ->
    pool_ok (fst (fold_left (evaluate P) l (done, (c, ar, tr)))) (snd (snd (fold_left (evaluate P) l (done, (c, ar, tr))))).
  Proof.
    induction l as [|i l IH]; intros done c ar tr Hl Hd; [exact Hd|]. cbn [fold_left]. unfold evaluate at 2 4.
    assert (Hi : tr_ok (iv i)) by (apply Hl; left; reflexivity).
    assert (HL : forall j, In j l -> tr_ok (iv j)) by (intros j Hj; apply Hl; right; exact Hj).
    destruct Hd as (D1 & D2).
    destruct (iobj i) as [o|] eqn:Eo.
    - apply IH; [exact HL|]. split; [|exact D2]. intros j Hj. apply in_app_or in Hj as [Hj|[<-|[]]]; auto.
    - destruct (match ar with Some m => lookup (iv i) m | None => None end) as [o|].
      + apply IH; [exact HL|]. split; [|exact D2]. intros j Hj. apply in_app_or in Hj as [Hj|[<-|[]]]; auto.
      + apply IH; [exact HL|]. split; intros j Hj; apply in_app_or in Hj as [Hj|[<-|[]]]; auto.
  Qed.

  Definition n_ok (s : nstate) : Prop := pool_ok (individuals s) (evals s).

  Lemma calc_ok s : n_ok s -> n_ok (calculate_objectives P s).
  Proof.
    intros (H1 & H2). unfold calculate_objectives.
    pose proof (evaluate_fold (individuals s) [] (cost s) (archive s) (evals s) H1) as H.
    destruct (fold_left (evaluate P) (individuals s) ([], (cost s, archive s, evals s))) as (inds & ((c & ar) & tr)).
    cbn in H. apply H. split; [intros i []|exact H2].
  Qed.
  Lemma child_ok D pop mating ms i y : make_child P D pop mating ms i = Some y -> tr_ok (iv y).
  Proof.
    unfold make_child. destruct (nth_error mating i) as [a|]; [|discriminate]. destruct (nth_error mating (ms + i)) as [b|]; [|discriminate].
    destruct (nth_error pop a); [|discriminate]. destruct (nth_error pop b); [|discriminate].
    destruct (crossover _ _ _ _ _ _ _ _ _ _ _ _ _); [|discriminate]. destruct (mutate _ _ _ _ _ _); [|discriminate].
    intros E. injection E as <-. apply tr_trim.
  Qed.
  Lemma selected_ok l pos r tr : pool_ok l tr -> select_positions l pos = Some r -> forall x, In x r -> tr_ok (iv x).
  Proof.
    intros (H & _) E x Hx. destruct (select_in l pos r x E Hx) as (i & _ & Ei). apply H. eapply nth_error_In. exact Ei.
  Qed.
  Lemma step_ok D s s' : n_ok s -> step P D s = Some s' -> n_ok s'.
  Proof.
    intros H E. unfold step in E. destruct (sort_and_select P s) as [(surv & fit)|]; [|discriminate].
    destruct (mating_selection _ _ _ _) as [mating|]; [|discriminate].
    destruct (collect _) as [children|] eqn:Ec; [|discriminate].
    destruct (select_positions _ surv) as [kept|] eqn:Ek; [|discriminate]. injection E as <-.
    apply calc_ok. split; [|exact (proj2 H)]. cbn [individuals with_individuals]. intros i Hi. apply in_app_or in Hi as [Hi|Hi].
    - exact (selected_ok _ _ _ _ H Ek i Hi).
    - apply (collect_in _ _ Ec) in Hi. apply in_map_iff in Hi as (k & Hk & _). exact (child_ok _ _ _ _ _ _ Hk).
  Qed.
  Lemma finish_ok s s' l : n_ok s -> finish P s = Some (s', l) -> n_ok s' /\ l = map iv (individuals s').
  Proof.
    intros H E. unfold finish in E. apply calc_ok in H. destruct (sort_and_select P _) as [(surv & fit)|]; [|discriminate].
    destruct (select_positions _ surv) as [kept|] eqn:Ek; [|discriminate]. injection E as <- <-.
    split; [|reflexivity]. split; [|exact (proj2 H)]. exact (selected_ok _ _ _ _ H Ek).
  Qed.
  Lemma init_ok mating ar population : n_ok (init P mating ar population).
  Proof.
    apply calc_ok. split; [|intros v []]. cbn [individuals]. intros i Hi. apply in_map_iff in Hi as (x & <- & _). apply tr_trim.
  Qed.
  Lemma run_ops_ok ops : forall s s', n_ok s -> run_ops P s ops = Some s' -> n_ok s'.
  Proof.
    induction ops as [|o ops IH]; intros s s' H E; cbn in E; [injection E as <-; exact H|].
    destruct (run_op P s o) as [s1|] eqn:E1; [|discriminate]. apply (IH s1 s'); [|exact E].
    destruct o as [D|]; cbn in E1; [exact (step_ok D s s1 H E1)|].
    destruct (finish P s) as [(s2 & l)|] eqn:E2; [|discriminate]. injection E1 as <-. exact (proj1 (finish_ok _ _ _ H E2)).
  Qed.

  (** ---- JGBL ---- *)
  Lemma jstep_trim D J s s' : (forall l, Permutation (j_union J l) l) -> (forall l, Permutation (j_union2 J l) l) ->
    n_ok s -> jstep P D J s = Some s' -> n_ok s'.
  Proof.
    intros U1 U2 H E. unfold jstep in E. destruct (step P D s) as [s1|] eqn:E1; [|discriminate].
    pose proof (step_ok _ _ _ H E1) as H1.
    set (s2 := with_individuals s1 _) in E.
    assert (H2 : n_ok s2).
    { split; [|exact (proj2 H1)]. intros i Hi. cbn in Hi. eapply Permutation_in in Hi; [|apply U1].
      apply in_app_or in Hi as [Hi|Hi]; [apply (proj1 H); exact Hi|].
      apply (proj1 H1). rewrite <- (firstn_skipn (Nat.min (population_size s) (length (individuals s))) (individuals s1)).
      apply in_or_app. right. exact Hi. }
    destruct (sort_and_select P s2) as [(surv & fit)|]; [|discriminate].
    destruct (nsgaii_nd_sort _ _ _) as [fronts|]; [|discriminate].
    cbv zeta in E. destruct (length surv <? length (hd [] fronts)).
    2:{ injection E as <-. exact H1. }
    destruct (select_positions (individuals s2) surv) as [kept|] eqn:Ek; [|discriminate].
    destruct (select_positions (individuals s2) (filter _ _)) as [nd|]; [|discriminate].
    destruct (jump_genes _ _ _ _) as [jumping|]; [|discriminate].
    set (s3 := calculate_objectives P _) in E.
    assert (H3 : n_ok s3).
    { apply calc_ok. split; [|exact (proj2 H2)]. intros i Hi. cbn in Hi. eapply Permutation_in in Hi; [|apply U2].
      apply in_app_or in Hi as [Hi|Hi]; [exact (selected_ok _ _ _ _ H2 Ek i Hi)|].
      apply in_map_iff in Hi as (v & <- & _). apply tr_trim. }
    destruct (sort_and_select P s3) as [(surv3 & fit3)|]; [|discriminate].
    destruct (select_positions (individuals s3) surv3) as [l|] eqn:El; [|discriminate]. injection E as <-.
    split; [exact (selected_ok _ _ _ _ H3 El)|exact (proj2 H3)].
  Qed.
  Definition jorders (o : jop) : Prop :=
    match o with
    | JStep _ J => (forall l, Permutation (j_union J l) l) /\ (forall l, Permutation (j_union2 J l) l)
    | JFinalize => True
    end.
  Lemma run_jops_trim ops : Forall jorders ops -> forall s s', n_ok s -> run_jops P s ops = Some s' -> n_ok s'.
  Proof.
    induction 1 as [|o ops Ho _ IH]; intros s s' H E; cbn in E; [injection E as <-; exact H|].
    destruct (run_jop P s o) as [s1|] eqn:E1; [|discriminate]. apply (IH s1 s'); [|exact E].
    destruct o as [D J|]; cbn in E1; [exact (jstep_trim D J s s1 (proj1 Ho) (proj2 Ho) H E1)|].
    destruct (finish P s) as [(s2 & l)|] eqn:E2; [|discriminate]. injection E1 as <-. exact (proj1 (finish_ok _ _ _ H E2)).
  Qed.

  (** ---- SPEA2, SMS-EMOA ---- *)
  Definition members_ok (l : list member) (tr : list vec) : Prop :=
    (forall m, In m l -> tr_ok (m_value m)) /\ (forall v, In v tr -> tr_ok v).
  Lemma spea_fold fa n l : forall done c tr, (forall v, In v l -> tr_ok v) -> members_ok done tr ->
    members_ok (fst (fold_left (spea_evaluate (p_f P) fa n) l (done, (c, tr))))
               (snd (snd (fold_left (spea_evaluate (p_f P) fa n) l (done, (c, tr))))).
  Proof.
    induction l as [|v l IH]; intros done c tr Hl (D1 & D2); [split; assumption|]. cbn [fold_left]. unfold spea_evaluate at 2 4.
    assert (Hv : tr_ok v) by (apply Hl; left; reflexivity).
    assert (HL : forall j, In j l -> tr_ok j) by (intros j Hj; apply Hl; right; exact Hj).
    destruct (match fa with Some m => lookup v m | None => None end) as [o|].
    - apply IH; [exact HL|]. split; [|exact D2]. intros j Hj. apply in_app_or in Hj as [Hj|[<-|[]]]; auto.
    - apply IH; [exact HL|]. split; intros j Hj; apply in_app_or in Hj as [Hj|[<-|[]]]; auto.
  Qed.
  Definition spea_ok (s : spea_state) : Prop :=
    (forall v, In v (spea_population s) -> tr_ok v) /\ members_ok (spea_archive s) (spea_evals s).
  Lemma spea_step_ok fa n D s s' : spea_ok s -> spea_step P fa n D s = Some s' -> spea_ok s'.
  Proof.
    intros (H1 & H2 & H3) E. unfold spea_step, spea_objectives in E.
    pose proof (spea_fold fa (length (spea_population s)) (spea_population s) [] 0 (spea_evals s) H1) as F.
    destruct (fold_left _ _ _) as (pop & (c & tr)). cbn in F. destruct F as (F1 & F2); [split; [intros m []|exact H3]|].
    destruct (select_archive _ _) as [(e & fit)|]; [|discriminate].
    destruct (collect _) as [children|] eqn:Ec; [|discriminate]. injection E as <-. split; [|split]; cbn.
    - intros v Hv. apply (collect_in _ _ Ec) in Hv. apply in_map_iff in Hv as (k & Hk & _). revert Hk. unfold spea_child.
      destruct (tournament _ _ _); [|discriminate]. destruct (tournament _ _ _); [|discriminate].
      destruct (crossover _ _ _ _ _ _ _ _ _ _ _ _ _); [|discriminate]. destruct (mutate _ _ _ _ _ _); [|discriminate].
      intros Hk. injection Hk as <-. apply tr_trim.
    - intros m Hm. apply in_map_iff in Hm as (k & <- & _). apply (nth_or (fun m => tr_ok (m_value m))); [exact tr_nil|].
      intros a Ha. apply in_app_or in Ha as [Ha|Ha]; auto.
    - exact F2.
  Qed.
  Lemma spea_steps_ok fa n Ds : forall s s', spea_ok s -> spea_steps P fa n Ds s = Some s' -> spea_ok s'.
  Proof.
    induction Ds as [|D Ds IH]; intros s s' H E; cbn in E; [injection E as <-; exact H|].
    destruct (spea_step P fa n D s) as [s1|] eqn:E1; [|discriminate]. exact (IH s1 s' (spea_step_ok _ _ _ _ _ H E1) E).
  Qed.
  Lemma spea_init_ok population : spea_ok (spea_init P population).
  Proof. split; [intros v; apply tr_map_trim|]. split; intros v []. Qed.

  Definition sms_ok (s : sms_state) : Prop := members_ok (sms_individuals s) (sms_evals s).
  Lemma sms_generation_ok neg ref fa D s s' : sms_ok s -> sms_generation P neg ref fa D s = Some s' -> sms_ok s'.
  Proof.
    intros (H1 & H2) E. unfold sms_generation in E. destruct (generate P D (sms_individuals s)) as [v|] eqn:Eg; [|discriminate].
    assert (Hv : tr_ok v).
    { revert Eg. unfold generate. destruct (sample2 D) as (i & j). destruct (i =? j); [discriminate|].
      destruct (nth_error _ i); [|discriminate]. destruct (nth_error _ j); [|discriminate].
      destruct (crossover _ _ _ _ _ _ _ _ _ _ _ _ _); [|discriminate]. destruct (mutate _ _ _ _ _ _); [|discriminate].
      intros Hk. injection Hk as <-. apply tr_trim. }
    unfold sms_objectives in E.
    pose proof (spea_fold fa (length (sms_individuals s)) [v] [] 0 (sms_evals s)) as F.
    destruct (fold_left _ _ _) as (new & (c & tr)). cbn in F. destruct F as (F1 & F2);
      [intros w [<-|[]]; exact Hv|split; [intros m []|exact H2]|].
    destruct (reduce_population _ _ _ _) as [pop|] eqn:Er; [|discriminate]. injection E as <-. split; [|exact F2]. cbn.
    intros m Hm. assert (Hin : In m (sms_individuals s ++ new)).
    { revert Er. unfold reduce_population. destruct (smsemoa_nd_sort _ _ _) as [fronts|]; [|discriminate].
      destruct (rev fronts) as [|w fr]; [discriminate|]. destruct (hypervolume_contributions _ _ _); [|discriminate].
      destruct (combine _ _) as [|c0 cs]; [discriminate|]. intros Er. injection Er as <-. unfold without in Hm.
      set (i := min_contributor c0 cs) in Hm. clearbody i.
      rewrite <- (firstn_skipn i (sms_individuals s ++ new)). apply in_app_or in Hm as [Hm|Hm]; apply in_or_app; [left; exact Hm|right].
      clear - Hm. revert Hm. generalize (sms_individuals s ++ new). clear. induction i as [|i IH]; intros l Hm.
      - destruct l; [destruct Hm|right; exact Hm].
      - destruct l; [destruct Hm|]. cbn [skipn] in *. apply IH. exact Hm. }
    apply in_app_or in Hin as [Hi|Hi]; auto.
  Qed.
  Lemma sms_generations_ok neg ref fa Ds : forall s s', sms_ok s -> sms_generations P neg ref fa Ds s = Some s' -> sms_ok s'.
  Proof.
    induction Ds as [|D Ds IH]; intros s s' H E; cbn in E; [injection E as <-; exact H|].
    destruct (sms_generation P neg ref fa D s) as [s1|] eqn:E1; [|discriminate]. exact (IH s1 s' (sms_generation_ok _ _ _ _ _ _ H E1) E).
  Qed.
  Lemma sms_steps_ok neg ref fa n Ds : forall s s', sms_ok s -> sms_steps P neg ref fa n Ds s = Some s' -> sms_ok s'.
  Proof.
    induction Ds as [|D Ds IH]; intros s s' H E; cbn in E; [injection E as <-; exact H|].
    destruct (sms_step P neg ref fa n D s) as [s1|] eqn:E1; [|discriminate]. exact (IH s1 s' (sms_generations_ok _ _ _ _ _ _ H E1) E).
  Qed.
  Lemma sms_init_ok fa population : sms_ok (sms_init P fa population).
  Proof.
    unfold sms_init, sms_objectives.
    pose proof (spea_fold fa (length population) (map (p_trim P) population) [] 0 []) as F.
    destruct (fold_left _ _ _) as (new & (c & tr)). cbn in F. apply F; [intros v; apply tr_map_trim|]. split; intros v [].
  Qed.

  (** ---- NSLS ---- *)
  Lemma tr_set_nth k a x : tr_ok x -> tr_ok a -> forall xk, nth_error x k = Some xk -> tr_ok (set_nth k xk a).
  Proof.
    destruct HT as (t & I & E). unfold tr_ok. intros Hx Ha xk Hk. rewrite E in Hx, Ha |- *.
    assert (Hxk : t xk = xk).
    { rewrite <- Hx in Hk. rewrite nth_error_map in Hk. destruct (nth_error x k) as [z|]; [|discriminate]. injection Hk as <-. apply I. }
    clear - Ha Hxk. revert a Ha. induction k as [|k IH]; intros [|b a] Ha; cbn [set_nth map] in *; [reflexivity| |reflexivity|]; injection Ha as H1 H2; f_equal; auto.
  Qed.
  Lemma candidate_ok x k d w : tr_ok x -> candidate P x k d = Some w -> tr_ok w.
  Proof.
    intros Hx. unfold candidate. destruct (nth_error x k) as [xk|] eqn:Ek; [|discriminate].
    destruct (nth_error (p_dims P) k) as [(lb & ub)|]; [|discriminate]. destruct (nth_error (p_trim P _) k) as [wk|]; [|discriminate].
    intros E. injection E as <-. destruct (_ || _); [|apply tr_trim]. exact (tr_set_nth k _ x Hx (tr_trim _) xk Ek).
  Qed.
  Definition copy_ok (st : list (indiv * bool) * context) : Prop := pool_ok (map fst (fst st)) (snd (snd st)).
  Lemma replacement_in coin x p m w : replacement coin x p m = Some w -> w = p \/ w = m.
  Proof.
    unfold replacement. intros E.
    repeat match type of E with context [if ?b then _ else _] => destruct b end; try discriminate; injection E as <-; auto.
  Qed.
  Lemma search_one_ok D i k st st' : copy_ok st -> search_one P D i k st = Some st' -> copy_ok st'.
  Proof.
    destruct st as (copy & ((c & ar) & tr)). intros (H1 & H2) E. cbn [fst snd] in H1, H2. unfold search_one in E.
    destruct (ls_sample D i k) as (a & b). destruct (a =? b); [discriminate|].
    destruct (nth_error copy i) as [(x & fx)|] eqn:Ei; [|discriminate]. destruct (nth_error copy a) as [(u & fu)|]; [|discriminate].
    destruct (nth_error copy b) as [(v & fv)|]; [|discriminate]. destruct (nth_error (iv u) k) as [uk|]; [|discriminate].
    destruct (nth_error (iv v) k) as [vk|]; [|discriminate]. cbv zeta in E.
    assert (Hx : tr_ok (iv x)). { apply H1. apply nth_error_In in Ei. apply (in_map fst) in Ei. exact Ei. }
    destruct (candidate P (iv x) k _) as [p|] eqn:Ep; [|discriminate].
    destruct (candidate P (iv x) k (- _)) as [m|] eqn:Em; [|discriminate].
    apply (candidate_ok _ _ _ _ Hx) in Ep. apply (candidate_ok _ _ _ _ Hx) in Em.
    pose proof (evaluate_fold [mk_indiv p None; mk_indiv m None] [] c ar tr) as F.
    destruct (fold_left (evaluate P) [mk_indiv p None; mk_indiv m None] ([], (c, ar, tr))) as (l & ((c' & ar') & tr')).
    cbn [fst snd] in F. destruct F as (F1 & F2).
    { intros j [<-|[<-|[]]]; assumption. }
    { split; [intros j []|exact H2]. }
    destruct l as [|wp [|wm [|]]]; try discriminate. injection E as <-. split; cbn [fst snd]; [|exact F2].
    destruct (replacement _ x wp wm) as [w|] eqn:Er; [|exact H1].
    assert (Hw : tr_ok (iv w)). { destruct (replacement_in _ _ _ _ _ Er) as [->| ->]; apply F1; [left|right; left]; reflexivity. }
    intros j Hj. apply in_map_iff in Hj as ((j0 & fj) & <- & Hj). cbn.
    assert (G : Forall (fun q : indiv * bool => tr_ok (iv (fst q))) (set_nth i (w, true) copy)).
    { apply Forall_set_nth; [|exact Hw]. apply Forall_forall. intros q Hq. apply H1. apply in_map. exact Hq. }
    rewrite Forall_forall in G. exact (G _ Hj).
  Qed.
  Lemma for_each_ok {A S} (body : A -> S -> option S) (I : S -> Prop) l :
    (forall a s s', I s -> body a s = Some s' -> I s') -> forall s s', I s -> for_each body l s = Some s' -> I s'.
  Proof.
    intros B. induction l as [|a l IH]; intros s s' H E; cbn in E; [injection E as <-; exact H|].
    destruct (body a s) as [s1|] eqn:E1; [|discriminate]. exact (IH s1 s' (B a s s1 H E1) E).
  Qed.
  Definition nsls_ok (s : nsls_state) : Prop := pool_ok (nl_individuals s) (snd (nl_context s)).
  Lemma nsls_step_ok fuel D sample s s' : nsls_ok s -> nsls_step P fuel D sample s = Done s' -> nsls_ok s'.
  Proof.
    intros (H1 & H2) E. unfold nsls_step in E. destruct (nl_context s) as ((c & ar) & tr) eqn:Ec. cbn in H2.
    pose proof (evaluate_fold (nl_individuals s) [] c ar tr H1) as F.
    destruct (fold_left (evaluate P) (nl_individuals s) ([], (c, ar, tr))) as (inds & ((c1 & ar1) & tr1)).
    cbn [fst snd] in F. destruct F as (F1 & F2); [split; [intros i []|exact H2]|].
    destruct (local_search P D _) as [(inds' & ctx)|] eqn:El; [|discriminate].
    assert (G : pool_ok inds' (snd ctx)).
    { unfold local_search in El. destruct (for_each _ _ _) as [(copy & ctx')|] eqn:Ef; [|discriminate]. injection El as <- <-.
      assert (K : copy_ok (copy, ctx')).
      { apply (for_each_ok _ copy_ok) in Ef; [exact Ef| |].
        - intros a st st' Hst. apply (for_each_ok _ copy_ok); [|exact Hst]. intros k st1 st2. apply search_one_ok.
        - split; cbn [fst snd]; [|exact F2]. intros i Hi. rewrite map_map, map_id in Hi. auto. }
      destruct K as (K1 & K2). cbn [fst snd] in K1, K2. split; [|exact K2]. intros i Hi. apply in_app_or in Hi as [Hi|Hi]; [auto|].
      apply K1. apply in_map_iff in Hi as (q & <- & Hq). apply in_map. apply filter_In in Hq. apply Hq. }
    destruct (next_generation _ _ _ _ _) as [pos| |]; try discriminate. injection E as <-. split; cbn; [|exact (proj2 G)].
    intros i Hi. apply in_map_iff in Hi as (k & <- & _). unfold at_pos. apply (nth_or (fun i => tr_ok (iv i))); [exact tr_nil|exact (proj1 G)].
  Qed.
  Lemma nsls_steps_ok fuel Ds : forall s s', nsls_ok s -> nsls_steps P fuel Ds s = Done s' -> nsls_ok s'.
  Proof.
    induction Ds as [|(D & sample) Ds IH]; intros s s' H E; cbn in E; [injection E as <-; exact H|].
    destruct (nsls_step P fuel D sample s) as [s1| |] eqn:E1; try discriminate. exact (IH s1 s' (nsls_step_ok _ _ _ _ _ H E1) E).
  Qed.
  Lemma nsls_init_ok ar population : nsls_ok (nsls_init P ar population).
  Proof. split; [|intros v []]. cbn. intros i Hi. apply in_map_iff in Hi as (x & <- & _). apply tr_trim. Qed.

  (** ---- NSGA-III ---- *)
  Definition n3_ok (s : n3_state) : Prop := pool_ok (n3_individuals s) (snd (n3_context s)).
  Lemma uip_ok ideal ctx inds inds' ctx' ideal' : pool_ok inds (snd ctx) ->
    update_ideal_point P ideal ctx inds = Some (inds', ctx', ideal') -> pool_ok inds' (snd ctx').
  Proof.
    intros (H1 & H2) E. unfold update_ideal_point in E. destruct ctx as ((c & ar) & tr).
    pose proof (evaluate_fold inds [] c ar tr H1) as F. destruct (fold_left _ _ _) as (l & ctx1).
    destruct (along _ _ _); [|discriminate]. injection E as <- <- _. apply F. split; [intros i []|exact H2].
  Qed.
  Lemma n3_step_ok theta fuel D s s' : n3_ok s -> n3_step P theta fuel D s = Done s' -> n3_ok s'.
  Proof.
    intros (H1 & H2) E. unfold n3_step in E. destruct (make_offspring P D _ _) as [off|] eqn:Eo; [|discriminate].
    destruct (update_ideal_point P _ _ off) as [((off' & ctx) & ideal)|] eqn:Eu; [|discriminate].
    assert (G : pool_ok off' (snd ctx)).
    { apply (uip_ok _ _ _ _ _ _) in Eu; [exact Eu|]. split; [|exact H2]. unfold make_offspring in Eo.
      destruct (comprehension _ _) as [pairs|]; [|discriminate]. injection Eo as <-. intros i Hi.
      apply in_map_iff in Hi as (x & <- & _). apply tr_trim. }
    destruct (normalize _ _ _ _) as [ns|]; [|discriminate]. destruct (clustering _ _) as [cs|]; [|discriminate]. cbv zeta in E.
    destruct (nd_sort_gen _ _ _) as [fronts|]; [|discriminate]. destruct (create_final_population _ _ _ _) as [pos| |]; try discriminate.
    injection E as <-. split; cbn; [|exact (proj2 G)]. intros i Hi. apply in_map_iff in Hi as (k & <- & _). unfold at_pos.
    apply (nth_or (fun i => tr_ok (iv i))); [exact tr_nil|]. intros a Ha. apply in_app_or in Ha as [Ha|Ha]; [apply (proj1 G)|apply H1]; exact Ha.
  Qed.
  Lemma n3_steps_ok theta fuel Ds : forall s s', n3_ok s -> n3_steps P theta fuel Ds s = Done s' -> n3_ok s'.
  Proof.
    induction Ds as [|D Ds IH]; intros s s' H E; cbn in E; [injection E as <-; exact H|].
    destruct (n3_step P theta fuel D s) as [s1| |] eqn:E1; try discriminate. exact (IH s1 s' (n3_step_ok _ _ _ _ _ H E1) E).
  Qed.
  Lemma n3_init_ok rands ar population s : n3_init P rands ar population = Some s -> n3_ok s.
  Proof.
    unfold n3_init. destruct (update_ideal_point _ _ _ _) as [((l & ctx) & ideal)|] eqn:Eu; [|discriminate]. intros E. injection E as <-.
    apply (uip_ok _ _ _ _ _ _) in Eu; [exact Eu|]. split; [|intros v []]. intros i Hi. apply in_map_iff in Hi as (x & <- & _). apply tr_trim.
  Qed.

  (** ---- OMOPSO ---- *)
  Definition leaders_ok (l : list leader) : Prop := forall x, In x l -> tr_ok (l_value x).
  Lemma scan_ok en ed p : tr_ok (l_value p) -> forall n rest kept l b, length rest <= n -> leaders_ok kept -> leaders_ok rest ->
    scan en ed p kept rest = Some (l, b) -> leaders_ok l.
  Proof.
    intros Hp. induction n as [|n IH]; intros rest kept l b Hn Hk Hr E.
    - destruct rest; [|cbn in Hn; lia]. cbn in E. injection E as <- _. intros x Hx. apply in_app_or in Hx as [Hx|[<-|[]]]; auto.
    - destruct rest as [|a rest]; cbn [scan] in E.
      + injection E as <- _. intros x Hx. apply in_app_or in Hx as [Hx|[<-|[]]]; auto.
      + assert (Ha : tr_ok (l_value a)) by (apply Hr; left; reflexivity).
        assert (Hr' : leaders_ok rest) by (intros x Hx; apply Hr; right; exact Hx).
        assert (K : leaders_ok (kept ++ a :: rest)) by (intros x Hx; apply in_app_or in Hx as [Hx|Hx]; auto).
        destruct (omopso_dominates _ _ (l_objs a) (l_objs p)) as [[|]|]; try discriminate.
        { injection E as <- _. exact K. }
        destruct (omopso_dominates _ _ (l_objs p) (l_objs a)) as [[|]|]; try discriminate.
        * destruct rest as [|q rest].
          -- injection E as <- _. intros x Hx. apply in_app_or in Hx as [Hx|[<-|[]]]; auto.
          -- apply (IH rest (kept ++ [q]) l b); [cbn in Hn; lia| | |exact E].
             ++ intros x Hx. apply in_app_or in Hx as [Hx|[<-|[]]]; [auto|]. apply Hr'. left. reflexivity.
             ++ intros x Hx. apply Hr'. right. exact Hx.
        * destruct (equal_obj _ _) as [[|]|]; try discriminate.
          { injection E as <- _. exact K. }
          apply (IH rest (kept ++ [a]) l b); [cbn in Hn; lia| |exact Hr'|exact E].
          intros x Hx. apply in_app_or in Hx as [Hx|[<-|[]]]; auto.
  Qed.
  Lemma archive_add_ok en ed ar p l b : leaders_ok ar -> tr_ok (l_value p) -> archive_add en ed ar p = Some (l, b) -> leaders_ok l.
  Proof. intros Ha Hp E. apply (scan_ok en ed p Hp (length ar) ar [] l b); [lia|intros x []|exact Ha|exact E]. Qed.
  Lemma crowd_rest_ok i span : forall rest prev, leaders_ok rest -> leaders_ok (crowd_rest i span prev rest).
  Proof.
    induction rest as [|a rest IH]; intros prev Hr; [exact Hr|]. cbn [crowd_rest].
    destruct rest as [|b rest].
    - intros x [<-|[]]. cbn. apply Hr. left. reflexivity.
    - intros x [<-|Hx]; [cbn; apply Hr; left; reflexivity|]. apply (IH a); [|exact Hx]. intros y Hy. apply Hr. right. exact Hy.
  Qed.
  Lemma crowd_objective_ok l i : leaders_ok l -> leaders_ok (OmopsoModel.crowd_objective l i).
  Proof.
    intros H. unfold OmopsoModel.crowd_objective. destruct (stable_sort _ l) as [|a rest] eqn:E; [intros x []|].
    assert (G : leaders_ok (a :: rest)). { intros x Hx. apply H. rewrite <- E in Hx. apply stable_sort_In in Hx. exact Hx. }
    intros x [<-|Hx]; [cbn; apply G; left; reflexivity|]. revert Hx. apply crowd_rest_ok. intros y Hy. apply G. right. exact Hy.
  Qed.
  Lemma om_crowding_ok l r : leaders_ok l -> OmopsoModel.crowding l = Some r -> leaders_ok r.
  Proof.
    intros H E. unfold OmopsoModel.crowding in E. destruct l as [|a l]; [discriminate|]. destruct (existsb _ _); [discriminate|].
    injection E as <-. change (set_crowd (Some 0%Q) a :: map (set_crowd (Some 0%Q)) l) with (map (set_crowd (Some 0%Q)) (a :: l)).
    assert (G : leaders_ok (map (set_crowd (Some 0%Q)) (a :: l))).
    { intros x Hx. apply in_map_iff in Hx as (y & <- & Hy). cbn. auto. }
    revert G. generalize (map (set_crowd (Some 0%Q)) (a :: l)). generalize (seq 0 (length (l_objs a))).
    intros js. induction js as [|j js IH]; intros ls G; [exact G|]. cbn [fold_left]. apply IH. apply crowd_objective_ok. exact G.
  Qed.
  Lemma leader_add_ok size ar p l b : leaders_ok ar -> tr_ok (l_value p) -> leader_add size ar p = Some (l, b) -> leaders_ok l.
  Proof.
    intros Ha Hp E. unfold leader_add in E. destruct (archive_add 0 1 ar p) as [(l1 & b1)|] eqn:E1; [|discriminate].
    apply (archive_add_ok _ _ _ _ _ _ Ha Hp) in E1. destruct (_ && _); [|injection E as <- _; exact E1].
    destruct (prune l1) as [l2|] eqn:E2; [|discriminate]. injection E as <- _. unfold prune in E2.
    destruct (OmopsoModel.crowding l1) as [l3|] eqn:E3; [|discriminate]. apply (om_crowding_ok _ _ E1) in E3.
    destruct l3 as [|f r]; [discriminate|]. cbv zeta in E2. set (w := max_crowd _ _ _ _) in E2. clearbody w.
    apply (f_equal (fun o => match o with Some x => x | None => [] end)) in E2. subst l2. intros x Hx.
    assert (G : Forall (fun q => tr_ok (l_value q)) (f :: r)) by (apply Forall_forall; exact E3).
    apply in_app_or in Hx as [Hx|Hx].
    - apply (Forall_firstn _ w) in G. rewrite Forall_forall in G. auto.
    - apply (Forall_skipn _ (S w)) in G. rewrite Forall_forall in G. auto.
  Qed.
  Lemma update_leaders_ok size en ed ps : (forall p, In p ps -> tr_ok (OmopsoModel.value p)) -> forall acc r,
    leaders_ok (fst acc) -> leaders_ok (snd acc) -> update_leaders size en ed ps acc = Some r -> leaders_ok (fst r) /\ leaders_ok (snd r).
  Proof.
    induction ps as [|p ps IH]; intros Hp acc r H1 H2 E; cbn in E; [injection E as <-; auto|].
    assert (Hp0 : tr_ok (l_value (as_leader p))) by (apply Hp; left; reflexivity).
    assert (Hps : forall q, In q ps -> tr_ok (OmopsoModel.value q)) by (intros q Hq; apply Hp; right; exact Hq).
    destruct (leader_add size (fst acc) (as_leader p)) as [(leaders & b)|] eqn:El; [|discriminate].
    apply (leader_add_ok _ _ _ _ _ H1 Hp0) in El. destruct b.
    - destruct (archive_add en ed (snd acc) (as_leader p)) as [(a & b)|] eqn:Ea; [|discriminate].
      apply (archive_add_ok _ _ _ _ _ _ H2 Hp0) in Ea. exact (IH Hps (leaders, a) r El Ea E).
    - exact (IH Hps (leaders, snd acc) r El H2 E).
  Qed.
  Definition particles_ok (ps : list particle) : Prop := forall p, In p ps -> tr_ok (OmopsoModel.value p).
  Definition om_ok (s : om_state) : Prop :=
    particles_ok (om_particles s) /\ leaders_ok (om_leaders s) /\ leaders_ok (om_archive s) /\ forall v, In v (om_evals s) -> tr_ok v.
  Lemma om_evaluate_ok fa ps tr ps' c tr' : particles_ok ps -> (forall v, In v tr -> tr_ok v) ->
    om_evaluate P fa ps tr = (ps', (c, tr')) -> particles_ok ps' /\ forall v, In v tr' -> tr_ok v.
  Proof.
    intros H1 H2 E. unfold om_evaluate, sms_objectives in E.
    pose proof (spea_fold fa (length ps) (map OmopsoModel.value ps) [] 0 tr) as F.
    destruct (fold_left _ _ _) as (ms & (c0 & tr0)). injection E as <- <- <-. cbn in F. destruct F as (F1 & F2).
    { intros v Hv. apply in_map_iff in Hv as (p & <- & Hp). auto. }
    { split; [intros m []|exact H2]. }
    split; [|exact F2]. intros p Hp. apply in_map_iff in Hp as ((q & m) & <- & Hq). apply in_combine_l in Hq. cbn. auto.
  Qed.
  Lemma om_init_ok en ed fa population s : om_init P en ed fa population = Some s -> om_ok s.
  Proof.
    unfold om_init. destruct (om_evaluate P fa _ []) as (ps & (c & tr)) eqn:E.
    apply om_evaluate_ok in E; [|intros p Hp; apply in_map_iff in Hp as (v & <- & _); apply tr_trim|intros v []].
    destruct E as (E1 & E2). destruct (update_leaders _ _ _ ps _) as [(leaders & ar)|] eqn:Eu; [|discriminate].
    apply update_leaders_ok in Eu as (U1 & U2); [|exact E1|intros x []|intros x []].
    destruct (OmopsoModel.crowding leaders) as [l'|] eqn:Ec; [|discriminate]. apply (om_crowding_ok _ _ U1) in Ec.
    intros H. injection H as <-. split; [|split; [exact Ec|split; [exact U2|exact E2]]]. cbn. intros p Hp.
    apply in_map_iff in Hp as (q & <- & Hq). cbn. auto.
  Qed.
  Lemma om_step_ok en ed fa D s s' : om_ok s -> om_step P en ed fa D s = Some s' -> om_ok s'.
  Proof.
    intros (H1 & H2 & H3 & H4) E. unfold om_step in E.
    destruct (comprehension (speed_up P D _) _) as [ps1|]; [|discriminate].
    destruct (comprehension (moved_particle P) ps1) as [ps2|] eqn:E2; [|discriminate].
    assert (G2 : particles_ok ps2).
    { intros p Hp. destruct (comprehension_in _ _ _ E2 p Hp) as (q & _ & Eq). unfold moved_particle in Eq.
      destruct (move _ _ _) as [(v & sp)|]; [|discriminate]. injection Eq as <-. apply tr_trim. }
    destruct (om_evaluate P fa ps2 (om_evals s)) as (ps3 & (c & tr)) eqn:E3. apply om_evaluate_ok in E3 as (G3 & G4); [|exact G2|exact H4].
    destruct (update_leaders _ _ _ ps3 _) as [(leaders & ar)|] eqn:Eu; [|discriminate].
    apply update_leaders_ok in Eu as (U1 & U2); [|exact G3|exact H2|exact H3].
    destruct (comprehension update_best ps3) as [ps4|] eqn:E4; [|discriminate].
    destruct (OmopsoModel.crowding leaders) as [l'|] eqn:Ec; [|discriminate]. apply (om_crowding_ok _ _ U1) in Ec.
    injection E as <-. split; [|split; [exact Ec|split; [exact U2|exact G4]]]. cbn. intros p Hp.
    destruct (comprehension_in _ _ _ E4 p Hp) as (q & Hq & Eq). unfold update_best in Eq. destruct (bests q) as [|(bv & bo) bs]; [discriminate|].
    destruct (omopso_dominates _ _ _ _) as [[|]|]; try discriminate; injection Eq as <-; cbn; auto.
  Qed.
  Lemma om_steps_ok en ed fa Ds : forall s s', om_ok s -> om_steps P en ed fa Ds s = Some s' -> om_ok s'.
  Proof.
    induction Ds as [|D Ds IH]; intros s s' H E; cbn in E; [injection E as <-; exact H|].
    destruct (om_step P en ed fa D s) as [s1|] eqn:E1; [|discriminate]. exact (IH s1 s' (om_step_ok _ _ _ _ _ _ H E1) E).
  Qed.
End Trim.

(** ---- IBEA ---- *)
Section TrimIbea.
  Variable P : ibea_params.
  Hypothesis HT : rounds_genes (p_trim (ip P)).
  Definition ibs_ok (l tr : list ind_ibea) : Prop :=
    (forall i, In i l -> tr_ok (ip P) (ib_v i)) /\ (forall i, In i tr -> tr_ok (ip P) (ib_v i)).
  Lemma charge_fold fa l : forall done c tr, (forall i, In i l -> tr_ok (ip P) (ib_v i)) -> ibs_ok done tr ->
    ibs_ok (fst (fold_left (charge_one fa) l (done, (c, tr)))) (snd (snd (fold_left (charge_one fa) l (done, (c, tr))))).
  Proof.
    induction l as [|v l IH]; intros done c tr Hl (D1 & D2); [split; assumption|]. cbn [fold_left]. unfold charge_one at 2 4. cbv zeta.
    assert (Hv : tr_ok (ip P) (ib_v v)) by (apply Hl; left; reflexivity).
    assert (HL : forall j, In j l -> tr_ok (ip P) (ib_v j)) by (intros j Hj; apply Hl; right; exact Hj).
    destruct (_ || _); (apply IH; [exact HL|]); split; intros j Hj; try (apply in_app_or in Hj as [Hj|[<-|[]]]); auto.
  Qed.
  Definition ib_ok (s : ibea_state) : Prop := ibs_ok (ib_individuals s) (ib_charged s).
  Lemma scale_ok fa s : ib_ok s -> ib_ok (scale_objectives fa s).
  Proof.
    intros (H1 & H2). unfold scale_objectives. pose proof (charge_fold fa (ib_individuals s) [] (ib_cost s) (ib_charged s) H1) as F.
    destruct (fold_left _ _ _) as (l & (c & tr)). apply F. split; [intros i []|exact H2].
  Qed.
  Lemma ibea_op_ok s o s' : ib_ok s -> ibea_op P s o = Some s' -> ib_ok s'.
  Proof.
    intros H E. assert (K : forall s0 surv, ib_ok s0 -> forall i, In i (map (fun x => nth x (ib_individuals s0) (mk_ibea [] false)) surv) -> tr_ok (ip P) (ib_v i)).
    { intros s0 surv H0 i Hi. apply in_map_iff in Hi as (k & <- & _). apply (nth_or (fun i => tr_ok (ip P) (ib_v i)));
        [exact (tr_nil _ HT)|exact (proj1 H0)]. }
    destruct o as [D|]; cbn in E.
    - unfold ibea_step in E. destruct (ibea_select P s) as [(surv & fit)|]; [|discriminate]. destruct (ibea_mating _ _ _ _) as [mating|]; [|discriminate].
      destruct (collect _) as [children|] eqn:Ec; [|discriminate]. injection E as <-. apply scale_ok. split; [|exact (proj2 H)]. cbn.
      intros i Hi. apply in_app_or in Hi as [Hi|Hi]; [exact (K s surv H i Hi)|].
      apply (collect_in _ _ Ec) in Hi. apply in_map_iff in Hi as (k & Hk & _). revert Hk. unfold ibea_child.
      destruct (nth_error mating k); [|discriminate]. destruct (nth_error mating _); [|discriminate].
      destruct (crossover _ _ _ _ _ _ _ _ _ _ _ _ _); [|discriminate]. destruct (mutate _ _ _ _ _ _); [|discriminate].
      intros Hk. injection Hk as <-. apply tr_trim. exact HT.
    - destruct (ibea_finish P s) as [(s1 & l)|] eqn:Ef; [|discriminate]. injection E as <-. unfold ibea_finish in Ef. cbv zeta in Ef.
      pose proof (scale_ok (ip_fa P) s H) as H1. destruct (ibea_select P _) as [(surv & fit)|]; [|discriminate]. injection Ef as <- _.
      split; [|exact (proj2 H1)]. cbn. exact (K _ surv H1).
  Qed.
  Lemma ibea_ops_ok ops : forall s s', ib_ok s -> ibea_ops P s ops = Some s' -> ib_ok s'.
  Proof.
    induction ops as [|o ops IH]; intros s s' H E; cbn in E; [injection E as <-; exact H|].
    destruct (ibea_op P s o) as [s1|] eqn:E1; [|discriminate]. exact (IH s1 s' (ibea_op_ok _ _ _ H E1) E).
  Qed.
  Lemma ibea_init_ok mating population : ib_ok (ibea_init P mating population).
  Proof. apply scale_ok. split; [|intros v []]. cbn. intros i Hi. apply in_map_iff in Hi as (x & <- & _). apply tr_trim. exact HT. Qed.
End TrimIbea.
