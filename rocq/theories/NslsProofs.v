(** Proofs about NSLS. *)
From Verif Require Import Spec Base DomModel DomProofs NDSortModel NDSortProofs VarModel VarProofs NsgaModel NsgaProofs
  MetSpec MetModel MetProofs SpeaModel SmsSpec SmsModel SmsProofs NslsSpec NslsModel.
From Coq Require Import QArith Relation_Operators.
Local Open Scope nat_scope.

(** ---- local search ---- *)
Section Search.
  Variable P : params.
  Hypothesis trim_ok : forall k v, in_box_except k (p_dims P) v -> in_box_except k (p_dims P) (p_trim P v).
  Hypothesis f_dim : forall v, length (p_f P v) = p_m P.

  Definition fine (i : indiv) : Prop := in_box (p_dims P) (iv i) /\ iobj i = Some (p_f P (iv i)).
  Definition fine_context (c : nat * option (list (vec * vec)) * list vec) : Prop :=
    fst (fst c) = length (snd c) /\ archive_ok P (snd (fst c)).

  Lemma fine_objs i : fine i -> objs i = p_f P (iv i).
  Proof. intros (_ & H). unfold objs. now rewrite H. Qed.

  Lemma in_box_of_except k v : in_box_except k (p_dims P) v ->
    (forall lb ub x, nth_error (p_dims P) k = Some (lb, ub) -> nth_error v k = Some x -> (lb <= x <= ub)%Z) ->
    in_box (p_dims P) v.
  Proof.
    intros (HL & H) Hk. apply Forall2_of_nth; [congruence|].
    intros j [lb ub] x Hj Hx. cbn [fst snd]. destruct (Nat.eq_dec j k) as [->|Hjk]; [eapply Hk | eapply H]; eauto.
  Qed.

  Lemma except_of_box k v : in_box (p_dims P) v -> in_box_except k (p_dims P) v.
  Proof.
    intros H. split; [now apply in_box_length in H|]. intros j lb ub x _ Hj Hx. eapply in_box_nth; eauto.
  Qed.

  Lemma except_set_nth k a v : in_box_except k (p_dims P) v -> in_box_except k (p_dims P) (set_nth k a v).
  Proof.
    intros (HL & H). split; [now rewrite set_nth_length|]. intros j lb ub x Hj Hb Hx.
    rewrite nth_error_set_nth in Hx. destruct (k =? j) eqn:E; [apply Nat.eqb_eq in E; congruence|]. eapply H; eauto.
  Qed.

  Lemma trim_box v : in_box (p_dims P) v -> in_box (p_dims P) (p_trim P v).
  Proof.
    intros H. apply (in_box_of_except (length (p_dims P))).
    - apply trim_ok, except_of_box, H.
    - intros lb ub x Hb. apply nth_error_Some' in Hb. lia.
  Qed.

  Lemma candidate_ok x k d : in_box (p_dims P) x -> k < length (p_dims P) ->
    exists w, candidate P x k d = Some w /\ in_box (p_dims P) w.
  Proof.
    intros Hx Hk. unfold candidate. pose proof (in_box_length _ _ Hx) as HL.
    destruct (nth_error x k) as [xk|] eqn:Ex; [|apply nth_error_None in Ex; lia].
    destruct (nth_error (p_dims P) k) as [[lb ub]|] eqn:Eb; [|apply nth_error_None in Eb; lia].
    set (w := p_trim P _).
    assert (Hw : in_box_except k (p_dims P) w) by (apply trim_ok, except_set_nth, except_of_box, Hx).
    destruct (nth_error w k) as [wk|] eqn:Ew; [|apply nth_error_None in Ew; destruct Hw; lia].
    eexists. split; [reflexivity|].
    destruct ((wk <? lb)%Z || (ub <? wk)%Z) eqn:E.
    - apply (in_box_of_except k); [now apply except_set_nth|]. intros lb' ub' y Hb Hy.
      rewrite nth_error_set_nth, Nat.eqb_refl, Ew in Hy. injection Hy as <-. eapply in_box_nth; eauto.
    - apply orb_false_iff in E. destruct E as (E1 & E2). apply Z.ltb_ge in E1, E2.
      apply (in_box_of_except k); [exact Hw|]. intros lb' ub' y Hb Hy. rewrite Hb in Eb. injection Eb as -> ->.
      rewrite Ew in Hy. injection Hy as <-. lia.
  Qed.

  Lemma candidate_moved x k d w : (forall v, p_trim P v = v) -> candidate P x k d = Some w -> moved (p_dims P) k d x w.
  Proof.
    intros Ht. unfold candidate. destruct (nth_error x k) as [xk|] eqn:Ex; [|discriminate].
    destruct (nth_error (p_dims P) k) as [[lb ub]|] eqn:Eb; [|discriminate]. rewrite Ht.
    rewrite nth_error_set_nth, Nat.eqb_refl, Ex.
    intros [= <-]. unfold moved.
    assert (J : forall v j, j <> k -> nth_error (set_nth k v x) j = nth_error x j).
    { intros v j Hj. rewrite nth_error_set_nth. destruct (k =? j) eqn:E; [apply Nat.eqb_eq in E; congruence | reflexivity]. }
    destruct ((xk + d <? lb)%Z || (ub <? xk + d)%Z) eqn:E; rewrite !set_nth_length; (split; [reflexivity|split]).
    - intros j Hj. rewrite nth_error_set_nth. destruct (k =? j) eqn:E'; [apply Nat.eqb_eq in E'; congruence | now apply J].
    - intros lb' ub' a Hb Ha. rewrite Hb in Eb. injection Eb as -> ->. rewrite Ha in Ex. injection Ex as ->.
      apply orb_true_iff in E. rewrite !Z.ltb_lt in E. split; [lia|]. intros _.
      rewrite !nth_error_set_nth, Nat.eqb_refl, Ha. reflexivity.
    - exact (J (xk + d)%Z).
    - intros lb' ub' a Hb Ha. rewrite Hb in Eb. injection Eb as -> ->. rewrite Ha in Ex. injection Ex as ->.
      apply orb_false_iff in E. rewrite !Z.ltb_ge in E. split; [intros _|lia].
      rewrite !nth_error_set_nth, Nat.eqb_refl, Ha. reflexivity.
  Qed.

  Lemma dom_fine x y : fine x -> fine y -> (nsga_dominates (objs x) (objs y) = true <-> pareto_dom (objs x) (objs y)).
  Proof.
    intros Hx Hy. rewrite <- dominates_nsga. apply dominates_spec. now rewrite !fine_objs, !f_dim.
  Qed.

  Lemma dom_asym x y : nsga_dominates x y = true -> nsga_dominates y x = false.
  Proof.
    unfold nsga_dominates. destruct (nsga_dominates_weak x y), (nsga_dominates_weak y x); cbn; auto; discriminate.
  Qed.

  Lemma replacement_spec c x p m : fine x -> fine p -> fine m ->
    match replacement c x p m with
    | Some w => (w = p \/ w = m) /\ ~ pareto_dom (objs x) (objs w) /\
                (pareto_dom (objs p) (objs x) \/ pareto_dom (objs m) (objs x) -> pareto_dom (objs w) (objs x))
    | None => pareto_dom (objs x) (objs p) /\ pareto_dom (objs x) (objs m)
    end.
  Proof.
    intros Hx Hp Hm. unfold replacement.
    pose proof (dom_asym (objs p) (objs x)) as A1. pose proof (dom_asym (objs m) (objs x)) as A2.
    pose proof (dom_fine p x Hp Hx) as B1. pose proof (dom_fine m x Hm Hx) as B2.
    pose proof (dom_fine x p Hx Hp) as B3. pose proof (dom_fine x m Hx Hm) as B4.
    destruct (nsga_dominates (objs p) (objs x)), (nsga_dominates (objs m) (objs x)),
      (nsga_dominates (objs x) (objs p)), (nsga_dominates (objs x) (objs m)), c; cbn;
      try (specialize (A1 eq_refl)); try (specialize (A2 eq_refl)); try discriminate; clear A1 A2;
      intuition congruence.
  Qed.

  (** One replacement at position [i]: [x] gives way to [y]. *)
  Definition good_replacement (x y : indiv) : Prop := ~ pareto_dom (objs x) (objs y).

  Lemma search_one_ok D i k copy ctx : let n := length copy in
    Forall (fun e => fine (fst e)) copy -> fine_context ctx -> i < n -> k < length (p_dims P) ->
    fst (ls_sample D i k) < n -> snd (ls_sample D i k) < n -> fst (ls_sample D i k) <> snd (ls_sample D i k) ->
    exists copy' ctx' x flag u v uk vk p m, search_one P D i k (copy, ctx) = Some (copy', ctx') /\
      length copy' = n /\ Forall (fun e => fine (fst e)) copy' /\ fine_context ctx' /\
      (snd (fst ctx) = None -> snd (fst ctx') = None /\ snd ctx' = snd ctx ++ [iv p; iv m]) /\
      nth_error copy i = Some (x, flag) /\
      nth_error copy (fst (ls_sample D i k)) = Some u /\ nth_error copy (snd (ls_sample D i k)) = Some v /\
      nth_error (iv (fst u)) k = Some uk /\ nth_error (iv (fst v)) k = Some vk /\
      candidate P (iv x) k (ls_scaled D i k (uk - vk)) = Some (iv p) /\
      candidate P (iv x) k (- ls_scaled D i k (uk - vk)) = Some (iv m) /\ fine p /\ fine m /\
      ((copy' = copy /\ pareto_dom (objs x) (objs p) /\ pareto_dom (objs x) (objs m)) \/
       exists w, copy' = set_nth i (w, true) copy /\ (w = p \/ w = m) /\ ~ pareto_dom (objs x) (objs w) /\
                 (pareto_dom (objs p) (objs x) \/ pareto_dom (objs m) (objs x) -> pareto_dom (objs w) (objs x))).
  Proof.
    intros n HF (HC1 & HC2) Hi Hk Ha Hb Hab. unfold search_one.
    destruct (ls_sample D i k) as [a b]. cbn [fst snd] in *.
    destruct (a =? b) eqn:E; [apply Nat.eqb_eq in E; contradiction|].
    destruct (nth_error copy i) as [[x flag]|] eqn:Ei; [|apply nth_error_None in Ei; unfold n in Hi; lia].
    destruct (nth_error copy a) as [[u fu]|] eqn:Ea; [|apply nth_error_None in Ea; unfold n in Ha; lia].
    destruct (nth_error copy b) as [[v fv]|] eqn:Eb; [|apply nth_error_None in Eb; unfold n in Hb; lia].
    assert (G : forall j y fy, nth_error copy j = Some (y, fy) -> fine y).
    { intros j y fy Hj. rewrite Forall_forall in HF. apply (HF (y, fy)). eapply nth_error_In; eauto. }
    pose proof (G _ _ _ Ei) as Fx. pose proof (G _ _ _ Ea) as Fu. pose proof (G _ _ _ Eb) as Fv.
    destruct (nth_error (iv u) k) as [uk|] eqn:Euk; [|apply nth_error_None in Euk; destruct Fu as (Fu & _); apply in_box_length in Fu; lia].
    destruct (nth_error (iv v) k) as [vk|] eqn:Evk; [|apply nth_error_None in Evk; destruct Fv as (Fv & _); apply in_box_length in Fv; lia].
    set (diff := ls_scaled D i k (uk - vk)).
    destruct (candidate_ok (iv x) k diff (proj1 Fx) Hk) as (p & Ep & Bp).
    destruct (candidate_ok (iv x) k (- diff)%Z (proj1 Fx) Hk) as (m & Em & Bm). rewrite Ep, Em.
    destruct ctx as [[c ar] tr]. cbn [fst snd] in *.
    destruct (evaluate_run P [mk_indiv p None; mk_indiv m None] [] c ar tr HC2) as (l' & new & ar' & Er & HR & Har & Hno & _).
    { repeat constructor; cbv; intros o Ho; discriminate. }
    inversion HR as [|? wp ? l1 (V1 & O1) HR1]; subst. inversion HR1 as [|? wm ? l2 (V2 & O2) HR2]; subst.
    inversion HR2; subst. cbn [iv] in *. rewrite Er. cbn [app].
    assert (Fp : fine wp) by (split; congruence). assert (Fm : fine wm) by (split; congruence).
    pose proof (replacement_spec (ls_coin D i k) x wp wm Fx Fp Fm) as HRep.
    set (copy' := match replacement _ x wp wm with Some w => _ | None => copy end).
    exists copy', (length tr + length new, ar', tr ++ new), x, flag, (u, fu), (v, fv), uk, vk, wp, wm.
    rewrite V1, V2. cbn [fst snd].
    split; [reflexivity|]. split; [unfold copy'; destruct (replacement _ x wp wm); rewrite ?set_nth_length; reflexivity|].
    split; [|split; [|split; [|do 9 (split; [assumption || reflexivity|])]]].
    - unfold copy'. destruct (replacement _ x wp wm) as [w|]; [|exact HF].
      apply Forall_forall. intros e He. apply In_nth_error in He. destruct He as (j & Hj).
      rewrite nth_error_set_nth in Hj. destruct (i =? j); [destruct (nth_error copy j); [|discriminate]|].
      + injection Hj as <-. destruct HRep as ([-> | ->] & _); assumption.
      + rewrite Forall_forall in HF. apply HF. eapply nth_error_In; eauto.
    - split; cbn [fst snd]; [rewrite app_length; lia | exact Har].
    - intros Hn. destruct (Hno Hn) as (-> & ->). split; reflexivity.
    - unfold copy'. destruct (replacement _ x wp wm) as [w|]; [right; exists w; tauto | left; tauto].
  Qed.

  (** random.sample(individuals_copy, 2) gives two different positions. *)
  Definition ls_good (n : nat) (D : ls_draws) : Prop :=
    forall i k, i < n -> k < length (p_dims P) ->
      fst (ls_sample D i k) < n /\ snd (ls_sample D i k) < n /\ fst (ls_sample D i k) <> snd (ls_sample D i k).

  Lemma for_each_inv {A S} (body : A -> S -> option S) (I : nat -> S -> Prop) l : forall k s,
    I k s -> (forall a k s, In a l -> I k s -> exists s', body a s = Some s' /\ I (Datatypes.S k) s') ->
    exists s', for_each body l s = Some s' /\ I (k + length l) s'.
  Proof.
    induction l as [|a l IH]; intros k s HI HB; cbn [for_each length].
    - exists s. rewrite Nat.add_0_r. auto.
    - destruct (HB a k s) as (s1 & -> & HI1); [now left | exact HI|].
      destruct (IH (Datatypes.S k) s1 HI1) as (s' & -> & HI'); [intros b j t Hb; apply HB; now right|].
      exists s'. split; [reflexivity|]. now replace (k + Datatypes.S (length l)) with (Datatypes.S k + length l) by lia.
  Qed.

  (** The entries of [copy] come from [inds] by replacements, and are flagged if changed. *)
  Definition linked (inds : list indiv) (st : list (indiv * bool) * (nat * option (list (vec * vec)) * list vec)) : Prop :=
    Forall2 (fun x e => clos_refl_trans_1n _ (fun a b => good_replacement b a) (fst e) x /\ (snd e = false -> fst e = x)) inds (fst st) /\
    Forall (fun e => fine (fst e)) (fst st) /\ fine_context (snd st).

  Lemma search_one_inv D inds i k st : ls_good (length inds) D -> i < length inds -> k < length (p_dims P) ->
    linked inds st ->
    exists st', search_one P D i k st = Some st' /\ linked inds st' /\
      (snd (fst (snd st)) = None -> snd (fst (snd st')) = None /\ length (snd (snd st')) = length (snd (snd st)) + 2).
  Proof.
    intros HD Hi Hk (HL & HF & HC). destruct st as [copy ctx]. cbn [fst snd] in *.
    pose proof (Forall2_length' _ _ _ HL) as EL. destruct (HD i k Hi Hk) as (D1 & D2 & D3). rewrite EL in *.
    destruct (search_one_ok D i k copy ctx HF HC Hi Hk D1 D2 D3)
      as (copy' & ctx' & x & flag & u & v & uk & vk & p & m & E & L' & F' & C' & N' & Ei & _ & _ & _ & _ & _ & _ & Fp & Fm & HR).
    exists (copy', ctx'). split; [exact E|]. cbn [fst snd]. split; [split; [|split; assumption]|].
    - destruct HR as [(-> & _)|(y & -> & Hy & HnD & _)]; [exact HL|]. cbn [fst].
      apply Forall2_of_nth; [now rewrite set_nth_length|]. intros j z e Hz He. rewrite nth_error_set_nth in He.
      apply Forall2_nth_error in HL. destruct HL as (_ & HL).
      destruct (i =? j) eqn:Eij; [apply Nat.eqb_eq in Eij; subst j | eapply HL; eauto].
      rewrite Ei in He. injection He as <-. cbn [fst snd]. split; [|discriminate].
      destruct (HL i z _ Hz Ei) as (HT & _). cbn [fst] in HT. eapply rt1n_trans; [|exact HT]. exact HnD.
    - intros Hn. destruct (N' Hn) as (-> & ->). split; [reflexivity|]. now rewrite app_length.
  Qed.

  Lemma local_search_ok D inds ctx : ls_good (length inds) D -> Forall fine inds -> fine_context ctx ->
    exists copy ctx', local_search P D (inds, ctx) = Some (inds ++ map fst (filter snd copy), ctx') /\
      Forall2 (fun x e => clos_refl_trans_1n _ (fun a b => good_replacement b a) (fst e) x /\ (snd e = false -> fst e = x)) inds copy /\
      Forall (fun e => fine (fst e)) copy /\ fine_context ctx' /\
      (snd (fst ctx) = None -> snd (fst ctx') = None /\
         length (snd ctx') = length (snd ctx) + 2 * length (p_dims P) * length inds).
  Proof.
    intros HD HF HC. unfold local_search.
    set (I := fun w st => linked inds st /\ (snd (fst ctx) = None -> snd (fst (snd st)) = None /\
                length (snd (snd st)) = length (snd ctx) + 2 * w)).
    destruct (for_each_inv (fun i => for_each (search_one P D i) (seq 0 (length (p_dims P))))
                (fun w => I (w * length (p_dims P))) (seq 0 (length inds)) 0 (map (fun x => (x, false)) inds, ctx)) as (st & E & (HL & HN)).
    - split; [|intros Hn; cbn [fst snd]; split; [exact Hn | lia]]. split; [|split]; cbn [fst snd].
      + apply Forall2_of_nth; [now rewrite map_length|]. intros j x e Hx He. rewrite nth_error_map, Hx in He. injection He as <-.
        cbn [fst snd]. split; [apply rt1n_refl | reflexivity].
      + rewrite Forall_map. exact HF.
      + exact HC.
    - intros i w st Hi HI. rewrite in_seq in Hi.
      destruct (for_each_inv (search_one P D i) (fun v => I (w * length (p_dims P) + v)) (seq 0 (length (p_dims P))) 0 st) as (st' & E & HI').
      + now rewrite Nat.add_0_r.
      + intros k v s Hk (HL & HN). rewrite in_seq in Hk.
        destruct (search_one_inv D inds i k s HD ltac:(lia) ltac:(lia) HL) as (s' & Es & HL' & HN').
        exists s'. split; [exact Es|]. split; [exact HL'|]. intros Hn. destruct (HN Hn) as (N1 & N2). destruct (HN' N1) as (N3 & N4).
        split; [exact N3 | lia].
      + exists st'. split; [exact E|]. rewrite seq_length in HI'.
        replace (S w * length (p_dims P)) with (w * length (p_dims P) + (0 + length (p_dims P))) by lia. exact HI'.
    - rewrite E. destruct st as [copy ctx']. cbn [fst snd] in *. destruct HL as (L1 & L2 & L3).
      exists copy, ctx'. split; [reflexivity|]. split; [exact L1|]. split; [exact L2|]. split; [exact L3|].
      intros Hn. destruct (HN Hn) as (N1 & N2). split; [exact N1|]. rewrite seq_length in N2. cbn [fst snd] in N2. rewrite N2. lia.
  Qed.
End Search.

(** ---- selection ---- *)
Lemma concat_firstn_S {A} (fronts : list (list A)) : forall n, n < length fronts ->
  concat (firstn (S n) fronts) = concat (firstn n fronts) ++ nth n fronts [].
Proof.
  induction fronts as [|f l IH]; intros [|n] Hn; cbn [length] in Hn; try lia.
  - cbn. apply app_nil_r.
  - change (firstn (S (S n)) (f :: l)) with (f :: firstn (S n) l). change (firstn (S n) (f :: l)) with (f :: firstn n l).
    cbn [concat nth]. rewrite IH by lia. now rewrite app_assoc.
Qed.

Lemma fill_spec fronts size : forall fuel n acc,
  acc = concat (firstn n fronts) -> length acc <= size -> size < length (concat fronts) -> length fronts <= fuel + n ->
  exists n' last, n <= n' /\ nth_error fronts n' = Some last /\
    fill fuel size fronts n acc = Some (concat (firstn n' fronts), last) /\
    length (concat (firstn n' fronts)) <= size < length (concat (firstn n' fronts)) + length last.
Proof.
  assert (STOP : forall n acc, acc = concat (firstn n fronts) -> length acc <= size -> size < length (concat fronts) -> n < length fronts).
  { intros n acc -> Ha Ht. destruct (Nat.lt_ge_cases n (length fronts)) as [L|L]; [exact L|].
    rewrite firstn_all2 in Ha by exact L. lia. }
  assert (STEP : forall n, n < length fronts -> concat (firstn (S n) fronts) = concat (firstn n fronts) ++ nth n fronts []).
  { intros n Hn. now apply concat_firstn_S. }
  induction fuel as [|fuel IH]; intros n acc Ha Hl Ht Hf; pose proof (STOP n acc Ha Hl Ht) as Hn.
  - lia.
  - cbn [fill]. destruct (length acc + length (nth n fronts []) <=? size) eqn:E.
    + apply Nat.leb_le in E. destruct (IH (S n) (acc ++ nth n fronts [])) as (n' & last & H1 & H2 & H3 & H4).
      * rewrite STEP by exact Hn. now rewrite Ha.
      * rewrite app_length. lia.
      * exact Ht.
      * lia.
      * exists n', last. split; [lia|]. auto.
    + apply Nat.leb_gt in E. exists n, (nth n fronts []). split; [lia|]. split; [now apply nth_error_nth'|].
      split; [now rewrite Ha|]. rewrite <- Ha. lia.
Qed.

Lemma fill_hangs fronts size : length (concat fronts) <= size -> forall fuel n acc,
  acc = concat (firstn n fronts) -> fill fuel size fronts n acc = None.
Proof.
  intros Ht. assert (L : forall n, length (concat (firstn n fronts)) + length (nth n fronts []) <= size).
  { intros n. rewrite <- (firstn_skipn n fronts), concat_app, app_length in Ht.
    destruct (skipn n fronts) as [|f l] eqn:E.
    - rewrite nth_overflow; [cbn; cbn in Ht; lia|]. apply (f_equal (@length _)) in E. rewrite skipn_length in E. cbn in E. lia.
    - replace (nth n fronts []) with f; [cbn in Ht; rewrite app_length in Ht; lia|].
      rewrite <- (firstn_skipn n fronts), E. rewrite app_nth2; rewrite firstn_length.
      + destruct (Nat.min n (length fronts)) eqn:M; assert (n < length fronts) by
          (apply (f_equal (@length _)) in E; rewrite skipn_length in E; cbn in E; lia).
        * replace (n - 0) with 0 by lia. reflexivity.
        * replace (n - S n0) with 0 by lia. reflexivity.
      + lia. }
  induction fuel as [|fuel IH]; intros n acc Ha; cbn [fill]; specialize (L n); rewrite <- Ha in L; apply Nat.leb_le in L; rewrite L; [reflexivity|].
  apply IH. rewrite Ha. clear - n. destruct (Nat.lt_ge_cases n (length fronts)) as [Hn|Hn].
  - symmetry. now apply concat_firstn_S.
  - rewrite nth_overflow by lia. rewrite !firstn_all2 by lia. apply app_nil_r.
Qed.

Section Selection.
  Variable pop : list indiv.
  Notation val j x := (nth j (objs (at_pos pop x)) 0%Z).

  Lemma add_new_In x l y : In y (add_new x l) <-> y = x \/ In y l.
  Proof.
    unfold add_new. destruct (existsb (Nat.eqb x) l) eqn:E.
    - apply existsb_exists in E. destruct E as (z & Hz & Ez). apply Nat.eqb_eq in Ez. subst z.
      split; [tauto|]. intros [->|H]; auto.
    - rewrite in_app_iff. cbn. intuition congruence.
  Qed.

  Lemma add_new_NoDup x l : NoDup l -> NoDup (add_new x l).
  Proof.
    intros H. unfold add_new. destruct (existsb (Nat.eqb x) l) eqn:E; [exact H|].
    apply NoDup_app_disj; [exact H | repeat constructor; auto|]. intros y Hy [<-|[]].
    assert (existsb (Nat.eqb x) l = true); [|congruence]. apply existsb_exists. exists x. split; [exact Hy | apply Nat.eqb_refl].
  Qed.

  Definition held (add : list nat) (j : nat) (b : option (Z * nat)) : Prop :=
    match b with Some (m, i) => In i add /\ m = val j i | None => True end.

  Lemma extremes_loop_spec j (l : list nat) : forall mn mx add, NoDup add -> held add j mn -> held add j mx ->
    let r := extremes_loop pop j mn mx l add in
    NoDup r /\ incl add r /\ (forall x, In x r -> In x add \/ In x l) /\
    (l <> [] \/ mn <> None -> exists y, In y r /\ (forall x, In x l -> (val j y <= val j x)%Z) /\ (forall m i, mn = Some (m, i) -> (val j y <= m)%Z)) /\
    (l <> [] \/ mx <> None -> exists y, In y r /\ (forall x, In x l -> (val j x <= val j y)%Z) /\ (forall m i, mx = Some (m, i) -> (m <= val j y)%Z)).
  Proof.
    induction l as [|x l IH]; intros mn mx add ND H1 H2; cbn [extremes_loop].
    - split; [exact ND|]. split; [intros z Hz; exact Hz|]. split; [tauto|]. split.
      + intros [H|H]; [congruence|]. destruct mn as [[m i]|]; [|congruence]. destruct H1 as (Hi & ->).
        exists i. split; [exact Hi|]. split; [intros y []|]. intros m i' [= <- _]. lia.
      + intros [H|H]; [congruence|]. destruct mx as [[m i]|]; [|congruence]. destruct H2 as (Hi & ->).
        exists i. split; [exact Hi|]. split; [intros y []|]. intros m i' [= <- _]. lia.
    - set (mn' := match mn with Some (m, i) => if (val j x <? m)%Z then (val j x, x) else (m, i) | None => (val j x, x) end).
      set (mx' := match mx with Some (m, i) => if (m <? val j x)%Z then (val j x, x) else (m, i) | None => (val j x, x) end).
      set (add' := add_new (snd mx') (add_new (snd mn') add)).
      assert (V1 : fst mn' = val j (snd mn')).
      { unfold mn'. destruct mn as [[m i]|]; [destruct H1 as (_ & ->); destruct (_ <? _)%Z|]; reflexivity. }
      assert (V2 : fst mx' = val j (snd mx')).
      { unfold mx'. destruct mx as [[m i]|]; [destruct H2 as (_ & ->); destruct (_ <? _)%Z|]; reflexivity. }
      assert (O1 : snd mn' = x \/ In (snd mn') add).
      { unfold mn'. destruct mn as [[m i]|]; [destruct H1; destruct (_ <? _)%Z|]; cbn; auto. }
      assert (O2 : snd mx' = x \/ In (snd mx') add).
      { unfold mx'. destruct mx as [[m i]|]; [destruct H2; destruct (_ <? _)%Z|]; cbn; auto. }
      assert (L1 : (fst mn' <= val j x)%Z /\ forall m i, mn = Some (m, i) -> (fst mn' <= m)%Z).
      { unfold mn'. destruct mn as [[m i]|]; [destruct (Z.ltb_spec (val j x) m)|]; cbn [fst]; (split; [lia|]); intros a b [= <- _]; lia. }
      assert (L2 : (val j x <= fst mx')%Z /\ forall m i, mx = Some (m, i) -> (m <= fst mx')%Z).
      { unfold mx'. destruct mx as [[m i]|]; [destruct (Z.ltb_spec m (val j x))|]; cbn [fst]; (split; [lia|]); intros a b [= <- _]; lia. }
      destruct (IH (Some mn') (Some mx') add') as (R1 & R2 & R3 & R4 & R5).
      + now apply add_new_NoDup, add_new_NoDup.
      + destruct mn' as [m i]. cbn [fst snd] in *. split; [|exact V1]. unfold add'. rewrite !add_new_In. cbn; tauto.
      + destruct mx' as [m i]. cbn [fst snd] in *. split; [|exact V2]. unfold add'. rewrite !add_new_In. cbn; tauto.
      + split; [exact R1|]. split; [|split; [|split]].
        * intros z Hz. apply R2. unfold add'. rewrite !add_new_In. tauto.
        * intros z Hz. destruct (R3 z Hz) as [Hz'|Hz']; [|right; now right].
          unfold add' in Hz'. rewrite !add_new_In in Hz'. cbn. destruct Hz' as [->|[->|Hz']]; [| |tauto].
          -- destruct O2 as [->|O2]; tauto.
          -- destruct O1 as [->|O1]; tauto.
        * intros _. destruct R4 as (y & Y1 & Y2 & Y3); [right; discriminate|]. exists y. split; [exact Y1|].
          specialize (Y3 (fst mn') (snd mn')). rewrite <- surjective_pairing in Y3. specialize (Y3 eq_refl). destruct L1 as (L1 & L1').
          split; [intros z [<-|Hz]; [lia | auto]|]. intros m i Hm. specialize (L1' m i Hm). lia.
        * intros _. destruct R5 as (y & Y1 & Y2 & Y3); [right; discriminate|]. exists y. split; [exact Y1|].
          specialize (Y3 (fst mx') (snd mx')). rewrite <- surjective_pairing in Y3. specialize (Y3 eq_refl). destruct L2 as (L2 & L2').
          split; [intros z [<-|Hz]; [lia | auto]|]. intros m i Hm. specialize (L2' m i Hm). lia.
  Qed.

  Lemma extremes_spec m (l : list nat) : l <> [] ->
    NoDup (extremes pop m l) /\ incl (extremes pop m l) l /\
    forall j, j < m -> (exists y, In y (extremes pop m l) /\ forall x, In x l -> (val j y <= val j x)%Z) /\
                       (exists y, In y (extremes pop m l) /\ forall x, In x l -> (val j x <= val j y)%Z).
  Proof.
    intros Hne. unfold extremes. induction m as [|m IH].
    - cbn. split; [constructor|]. split; [intros x []|]. lia.
    - rewrite seq_S, fold_left_app. cbn [fold_left Nat.add]. destruct IH as (I1 & I2 & I3).
      set (add := fold_left _ (seq 0 m) []) in *.
      destruct (extremes_loop_spec m l None None add I1 I I) as (R1 & R2 & R3 & R4 & R5).
      split; [exact R1|]. split.
      { intros x Hx. destruct (R3 x Hx) as [H|H]; [now apply I2 | exact H]. }
      intros j Hj. destruct (Nat.eq_dec j m) as [->|Hjm].
      + destruct R4 as (y & Y1 & Y2 & _); [now left|]. destruct R5 as (z & Z1 & Z2 & _); [now left|]. eauto 10.
      + destruct (I3 j) as ((y & Y1 & Y2) & (z & Z1 & Z2)); [lia|]. split; [exists y | exists z]; split; auto.
  Qed.

  Lemma farthest_In d l : forall best, In (farthest d best l) (best :: l).
  Proof.
    induction l as [|x l IH]; intros best; cbn [farthest]; [now left|].
    destruct (IH (if (d best <? d x)%Z then x else best)) as [H|H]; [|right; now right].
    rewrite <- H. destruct (d best <? d x)%Z; [right; now left | now left].
  Qed.

  Lemma remove_id_spec x (l : list nat) : NoDup l -> In x l ->
    S (length (remove_id x l)) = length l /\ NoDup (remove_id x l) /\ forall y, In y (remove_id x l) <-> In y l /\ y <> x.
  Proof.
    induction l as [|a l IH]; intros ND Hx; [destruct Hx|]. inversion ND; subst. cbn [remove_id].
    destruct (x =? a) eqn:E.
    - apply Nat.eqb_eq in E. subst a. split; [reflexivity|]. split; [assumption|]. intros y. cbn. split; [|intuition congruence].
      intros Hy. split; [now right|]. intros ->. contradiction.
    - apply Nat.eqb_neq in E. destruct Hx as [->|Hx]; [congruence|]. destruct (IH H2 Hx) as (L & N & I1).
      cbn [length]. split; [lia|]. split.
      + constructor; [|exact N]. intros H. apply I1 in H. tauto.
      + intros y. cbn. rewrite I1. intuition congruence.
  Qed.

  Lemma farthest_max d l : forall best y, In y (best :: l) -> (d y <= d (farthest d best l))%Z.
  Proof.
    induction l as [|x l IH]; intros best y Hy; cbn [farthest].
    - destruct Hy as [->|[]]. lia.
    - destruct (Z.ltb_spec (d best) (d x)) as [H|H].
      + destruct Hy as [<-|Hy]; [|now apply IH]. specialize (IH x x (or_introl eq_refl)). lia.
      + destruct Hy as [<-|[<-|Hy]]; [apply IH; now left | specialize (IH best best (or_introl eq_refl)); lia | apply IH; now right].
  Qed.

  Definition min_gap (add : list nat) (i : nat) (d : Z) : Prop :=
    (exists a, In a add /\ d = gap pop i a) /\ forall a, In a add -> (d <= gap pop i a)%Z.

  Lemma min_gap_fun add i d d' : min_gap add i d -> min_gap add i d' -> d = d'.
  Proof.
    intros ((a & Ha & ->) & H1) ((b & Hb & ->) & H2). specialize (H1 b Hb). specialize (H2 a Ha). lia.
  Qed.

  Lemma spread_spec : forall count d (last add : list nat), NoDup last -> count <= length last ->
    (forall i, In i last -> min_gap add i (d i)) ->
    exists chosen, spread pop count d last add = Some (add ++ chosen) /\ length chosen = count /\ NoDup chosen /\ incl chosen last /\
      forall before c after y dy dc, chosen = before ++ c :: after -> In y last -> ~ In y before ->
        min_gap (add ++ before) y dy -> min_gap (add ++ before) c dc -> (dy <= dc)%Z.
  Proof.
    induction count as [|count IH]; intros d last add ND HL HG; cbn [spread].
    - exists []. rewrite app_nil_r. split; [reflexivity|]. repeat split; [constructor | intros x []|].
      intros [|b before] c after; discriminate.
    - destruct last as [|x l] eqn:El; [cbn in HL; lia|]. rewrite <- El in *.
      set (m := farthest d x l). assert (Hm : In m last) by (rewrite El; apply farthest_In).
      destruct (remove_id_spec m last ND Hm) as (L & N & I1).
      destruct (IH (fun i => Z.min (d i) (gap pop i m)) (remove_id m last) (add ++ [m]) N) as (ch & E & C1 & C2 & C3 & C4); [lia| |].
      { intros i Hi. apply I1 in Hi. destruct (HG i (proj1 Hi)) as ((a & Ha & Ea) & Hall). split.
        - destruct (Z.min_spec (d i) (gap pop i m)) as [(_ & ->)|(_ & ->)]; [exists a | exists m]; split; auto; apply in_or_app; cbn; tauto.
        - intros a' Ha'. apply in_app_or in Ha'. destruct Ha' as [Ha'|[<-|[]]]; [specialize (Hall a' Ha')|]; lia. }
      exists (m :: ch). rewrite E, <- app_assoc. split; [reflexivity|]. split; [cbn; lia|]. split; [|split].
      + constructor; [|exact C2]. intros H. apply C3, I1 in H. tauto.
      + intros y [<-|Hy]; [exact Hm|]. apply C3, I1 in Hy. tauto.
      + intros [|b before] c after y dy dc Ec Hy Hn G1 G2.
        * injection Ec as <- <-. rewrite app_nil_r in G1, G2.
          rewrite (min_gap_fun _ _ _ _ G1 (HG y Hy)), (min_gap_fun _ _ _ _ G2 (HG m Hm)).
          apply farthest_max. rewrite <- El. exact Hy.
        * injection Ec as <- ->. eapply (C4 before c after y); [reflexivity | apply I1; split; [exact Hy|] | | |].
          -- intros ->. apply Hn. now left.
          -- intros H. apply Hn. now right.
          -- rewrite <- app_assoc. exact G1.
          -- rewrite <- app_assoc. exact G2.
  Qed.

  Lemma min_gap_nearest k add i d : (forall x, In x (i :: add) -> length (iv (at_pos pop x)) = k) ->
    (nearest (map (fun x => iv (at_pos pop x)) add) (iv (at_pos pop i)) d <-> min_gap add i d).
  Proof.
    intros HL. assert (G : forall a, In a add -> sq_dist (iv (at_pos pop i)) (iv (at_pos pop a)) (gap pop i a)).
    { intros a Ha. apply euclid_sq_dist. rewrite !HL by (cbn; auto). reflexivity. }
    split.
    - intros ((t & Ht & Hd) & H). apply in_map_iff in Ht. destruct Ht as (a & <- & Ha). split.
      + exists a. split; [exact Ha|]. eapply sq_dist_fun; eauto.
      + intros b Hb. eapply H; [apply in_map_iff; eauto | auto].
    - intros ((a & Ha & ->) & H). split.
      + exists (iv (at_pos pop a)). split; [apply in_map_iff; eauto | auto].
      + intros t e Ht Hs. apply in_map_iff in Ht. destruct Ht as (b & <- & Hb).
        rewrite (sq_dist_fun _ _ _ _ Hs (G b Hb)). auto.
  Qed.

  Lemma extremes_loop_records j (l : list nat) : forall (pre : list nat) mn mx add,
    (mn = None <-> pre = []) -> (mx = None <-> pre = []) ->
    (forall m i, mn = Some (m, i) -> m = val j i /\ In i add /\ In i pre /\ forall y, In y pre -> (m <= val j y)%Z) ->
    (forall m i, mx = Some (m, i) -> m = val j i /\ In i add /\ In i pre /\ forall y, In y pre -> (val j y <= m)%Z) ->
    forall x, In x (extremes_loop pop j mn mx l add) <->
      In x add \/ exists l1 l2, l = l1 ++ x :: l2 /\
        ((forall y, In y (pre ++ l1) -> (val j x < val j y)%Z) \/ (forall y, In y (pre ++ l1) -> (val j y < val j x)%Z)).
  Proof.
    induction l as [|z l IH]; intros pre mn mx add N1 N2 H1 H2 x; cbn [extremes_loop].
    - split; [tauto|]. intros [H|([|a l1] & l2 & H & _)]; [exact H | discriminate | discriminate].
    - set (mn' := match mn with Some (m, i) => if (val j z <? m)%Z then (val j z, z) else (m, i) | None => (val j z, z) end).
      set (mx' := match mx with Some (m, i) => if (m <? val j z)%Z then (val j z, z) else (m, i) | None => (val j z, z) end).
      set (add' := add_new (snd mx') (add_new (snd mn') add)).
      assert (A1 : fst mn' = val j (snd mn') /\ In (snd mn') (pre ++ [z]) /\ (forall y, In y (pre ++ [z]) -> (fst mn' <= val j y)%Z) /\
        ((In (snd mn') add /\ exists y, In y pre /\ (val j y <= val j z)%Z) \/ (snd mn' = z /\ forall y, In y pre -> (val j z < val j y)%Z))).
      { unfold mn'. destruct mn as [[m i]|].
        - destruct (H1 m i eq_refl) as (-> & Ia & Ip & Hm). destruct (Z.ltb_spec (val j z) (val j i)) as [C|C]; cbn [fst snd].
          + split; [reflexivity|]. split; [apply in_or_app; cbn; tauto|].
            assert (HH : forall y, In y pre -> (val j z < val j y)%Z) by (intros y Hy; specialize (Hm y Hy); lia).
            split; [|right; auto]. intros y Hy. apply in_app_or in Hy. destruct Hy as [Hy|[<-|[]]]; [specialize (HH y Hy)|]; lia.
          + split; [reflexivity|]. split; [apply in_or_app; tauto|]. split; [|left; eauto].
            intros y Hy. apply in_app_or in Hy. destruct Hy as [Hy|[<-|[]]]; auto; lia.
        - assert (pre = []) as -> by tauto. cbn. split; [reflexivity|]. split; [auto|]. split; [intros y [<-|[]]; lia|]. right. split; [reflexivity | intros y []]. }
      assert (A2 : fst mx' = val j (snd mx') /\ In (snd mx') (pre ++ [z]) /\ (forall y, In y (pre ++ [z]) -> (val j y <= fst mx')%Z) /\
        ((In (snd mx') add /\ exists y, In y pre /\ (val j z <= val j y)%Z) \/ (snd mx' = z /\ forall y, In y pre -> (val j y < val j z)%Z))).
      { unfold mx'. destruct mx as [[m i]|].
        - destruct (H2 m i eq_refl) as (-> & Ia & Ip & Hm). destruct (Z.ltb_spec (val j i) (val j z)) as [C|C]; cbn [fst snd].
          + split; [reflexivity|]. split; [apply in_or_app; cbn; tauto|].
            assert (HH : forall y, In y pre -> (val j y < val j z)%Z) by (intros y Hy; specialize (Hm y Hy); lia).
            split; [|right; auto]. intros y Hy. apply in_app_or in Hy. destruct Hy as [Hy|[<-|[]]]; [specialize (HH y Hy)|]; lia.
          + split; [reflexivity|]. split; [apply in_or_app; tauto|]. split; [|left; eauto].
            intros y Hy. apply in_app_or in Hy. destruct Hy as [Hy|[<-|[]]]; auto; lia.
        - assert (pre = []) as -> by tauto. cbn. split; [reflexivity|]. split; [auto|]. split; [intros y [<-|[]]; lia|]. right. split; [reflexivity | intros y []]. }
      destruct A1 as (V1 & P1 & M1 & O1), A2 as (V2 & P2 & M2 & O2).
      rewrite (IH (pre ++ [z]) (Some mn') (Some mx') add').
      + unfold add'. rewrite !add_new_In. split.
        * intros [H|(l1 & l2 & -> & H)].
          -- destruct H as [->|[->|H]]; [| |now left].
             ++ destruct O2 as [(O2 & _)|(-> & O2)]; [now left|]. right. exists [], l. split; [reflexivity|]. rewrite app_nil_r. now right.
             ++ destruct O1 as [(O1 & _)|(-> & O1)]; [now left|]. right. exists [], l. split; [reflexivity|]. rewrite app_nil_r. now left.
          -- right. exists (z :: l1), l2. split; [reflexivity|]. rewrite <- app_assoc in H. exact H.
        * intros [H|([|z' l1] & l2 & E & H)]; [tauto| |].
          -- injection E as <- <-. rewrite app_nil_r in H. left. destruct H as [H|H].
             ++ destruct O1 as [(_ & y & Hy & Hl)|(-> & _)]; [specialize (H y Hy); lia | tauto].
             ++ destruct O2 as [(_ & y & Hy & Hl)|(-> & _)]; [specialize (H y Hy); lia | tauto].
          -- injection E as <- ->. right. exists l1, l2. split; [reflexivity|]. rewrite <- app_assoc. exact H.
      + split; [discriminate|]. intros E. apply app_eq_nil in E. destruct E; discriminate.
      + split; [discriminate|]. intros E. apply app_eq_nil in E. destruct E; discriminate.
      + intros m i E. assert (Em : m = fst mn' /\ i = snd mn') by (clearbody mn'; injection E as ->; auto).
        destruct Em as (-> & ->). split; [exact V1|]. split; [|auto]. unfold add'. rewrite !add_new_In. tauto.
      + intros m i E. assert (Em : m = fst mx' /\ i = snd mx') by (clearbody mx'; injection E as ->; auto).
        destruct Em as (-> & ->). split; [exact V2|]. split; [|auto]. unfold add'. rewrite !add_new_In. tauto.
  Qed.

  Lemma extremes_records m (l : list nat) x :
    In x (extremes pop m l) <-> exists j, j < m /\ record_in (fun i => val j i) l x.
  Proof.
    unfold extremes. induction m as [|m IH].
    - cbn. split; [tauto|]. intros (j & Hj & _). lia.
    - rewrite seq_S, fold_left_app. cbn [fold_left Nat.add].
      rewrite (extremes_loop_records m l [] None None); [| tauto | tauto | discriminate | discriminate].
      rewrite IH. cbn [app]. split.
      + intros [(j & Hj & H)|H]; [exists j | exists m]; split; auto; lia.
      + intros (j & Hj & H). destruct (Nat.eq_dec j m) as [->|Hjm]; [right; exact H | left; exists j; split; [lia | exact H]].
  Qed.

  Lemma select_last_spec sample m k (last : list nat) : is_sample sample -> 1 <= m -> NoDup last -> k <= length last -> last <> [] ->
    exists r, select_last pop sample m k last = Some r /\ length r = k /\ NoDup r /\ incl r last /\
      (k <= length (extremes pop m last) -> incl r (extremes pop m last)) /\
      (length (extremes pop m last) <= k -> exists chosen, r = extremes pop m last ++ chosen /\
         forall before c after y dy dc, chosen = before ++ c :: after -> In y last -> ~ In y (extremes pop m last ++ before) ->
           min_gap (extremes pop m last ++ before) y dy -> min_gap (extremes pop m last ++ before) c dc -> (dy <= dc)%Z).
  Proof.
    intros HS Hm ND HL Hne. unfold select_last. destruct (extremes_spec m last Hne) as (E1 & E2 & E3).
    set (add := extremes pop m last) in *.
    destruct (k <? length add) eqn:C1.
    - apply Nat.ltb_lt in C1. destruct (HS k add E1) as (S1 & S2 & S3); [lia|].
      eexists. split; [reflexivity|]. split; [exact S1|]. split; [exact S2|]. split; [intros x Hx; auto|]. split; [auto | lia].
    - apply Nat.ltb_ge in C1. destruct (length add <? k) eqn:C2.
      + apply Nat.ltb_lt in C2. set (rest := filter (fun x => negb (existsb (Nat.eqb x) add)) last).
        assert (Hadd : add <> []).
        { destruct (E3 0) as ((y & Hy & _) & _); [lia|]. destruct add; [destruct Hy | discriminate]. }
        destruct (comprehension_total (fun x => py_min (map (gap pop x) add)) rest) as (ds & ->).
        { intros x _. apply py_min_some. destruct add; [congruence | discriminate]. }
        assert (HR : forall x, In x rest <-> In x last /\ ~ In x add).
        { intros x. unfold rest. rewrite filter_In, negb_true_iff. split; intros (A & B); split; auto.
          - intros H. assert (existsb (Nat.eqb x) add = true); [|congruence]. apply existsb_exists. exists x. split; [exact H | apply Nat.eqb_refl].
          - apply not_true_iff_false. intros H. apply existsb_exists in H. destruct H as (z & Hz & Ez). apply Nat.eqb_eq in Ez. congruence. }
        assert (NR : NoDup rest) by (now apply NoDup_filter).
        assert (LR : k - length add <= length rest).
        { assert (length last <= length (add ++ rest)); [|rewrite app_length in *; lia].
          apply NoDup_incl_length; [exact ND|]. intros x Hx. apply in_or_app. destruct (in_dec Nat.eq_dec x add); [now left|].
          right. apply HR. auto. }
        destruct (spread_spec (k - length add) (fun x => match py_min (map (gap pop x) add) with Some d => d | None => 0%Z end) rest add NR LR)
          as (ch & -> & S1 & S2 & S3 & S4).
        { intros i _. destruct (py_min_some (map (gap pop i) add)) as (d & Ed); [destruct add; [congruence | discriminate]|].
          rewrite Ed. apply py_min_spec in Ed. destruct Ed as (Ed1 & Ed2). apply in_map_iff in Ed1. destruct Ed1 as (a & <- & Ha).
          split; [eauto|]. intros b Hb. apply Ed2, in_map_iff. eauto. }
        eexists. split; [reflexivity|]. split; [rewrite app_length; lia|]. split.
        * apply NoDup_app_disj; auto. intros x Hx Hc. apply S3, HR in Hc. tauto.
        * split; [intros x Hx; apply in_app_or in Hx; destruct Hx as [Hx|Hx]; [now apply E2 | now apply S3, HR in Hx]|].
          split; [lia|]. intros _. exists ch. split; [reflexivity|]. intros before c after y dy dc Ec Hy Hn. eapply S4; eauto.
          -- apply HR. split; [exact Hy|]. intros H. apply Hn, in_or_app. now left.
          -- intros H. apply Hn, in_or_app. now right.
      + apply Nat.ltb_ge in C2. eexists. split; [reflexivity|]. split; [lia|]. split; [exact E1|]. split; [exact E2|].
        split; [intros _ x Hx; exact Hx|]. intros _. exists []. rewrite app_nil_r. split; [reflexivity|].
        intros [|b before] c after; discriminate.
  Qed.
End Selection.

Lemma nsls_fronts (iter : nat -> list nat -> list nat) (pop : list indiv) (d : nat) :
  (forall x l, Permutation (iter x l) l) -> all_dim d objs pop ->
  exists fronts, nsls_nd_sort (fun i => objs (at_pos pop i)) iter (seq 0 (length pop)) = Some fronts /\
    split_into_fronts objs pop fronts.
Proof.
  intros Hit HD.
  assert (HD' : all_dim d (fun i => objs (at_pos pop i)) (seq 0 (length pop))).
  { intros i Hi. rewrite in_seq in Hi. apply HD. unfold at_pos. apply nth_In. lia. }
  destruct (nsgaii_nd_sort_ok _ d iter (seq 0 (length pop)) Hit (seq_NoDup _ _) HD') as (fronts & E & HP & HN & HF).
  exists fronts. split; [exact E|]. split; [exact HP|]. split; [exact HN|].
  assert (OA : forall j o, SmsSpec.obj_at objs pop j o <-> j < length pop /\ o = objs (at_pos pop j)).
  { intros j o. unfold at_pos. split.
    - intros (x & Ex & <-). split; [now apply nth_error_Some' in Ex|]. now rewrite (nth_error_nth _ _ _ Ex).
    - intros (Hj & ->). exists (nth j pop (mk_indiv [] None)). split; [now apply nth_error_nth' | reflexivity]. }
  intros n front i Hn. rewrite (HF n front i Hn), in_seq. split.
  - intros (Hi & Ho & HD''). split; [lia|]. split; [exact Ho|]. intros j oj oi Hj Hjn Hoi.
    apply OA in Hj, Hoi. destruct Hj as (Hj & ->), Hoi as (_ & ->). apply HD''; [rewrite in_seq; lia | exact Hjn].
  - intros (Hi & Ho & HD''). split; [lia|]. split; [exact Ho|]. intros j Hj Hjn. rewrite in_seq in Hj.
    apply (HD'' j); [apply OA; split; [lia | reflexivity] | exact Hjn | apply OA; auto].
Qed.

Lemma next_generation_ok (P : params) fuel sample size (pop : list indiv) :
  (forall x l, Permutation (p_iter P x l) l) -> is_sample sample -> 1 <= p_m P ->
  all_dim (p_m P) objs pop -> size < length pop -> length pop <= fuel ->
  exists e fronts n last kept, next_generation P fuel sample size pop = Done e /\
    length e = size /\ NoDup e /\ (forall i, In i e -> i < length pop) /\
    split_into_fronts objs pop fronts /\ nth_error fronts n = Some last /\
    e = concat (firstn n fronts) ++ kept /\ incl kept last /\
    NoDup last /\ incl last (seq 0 (length pop)) /\ last <> [] /\
    (length kept <= length (extremes pop (p_m P) last) -> incl kept (extremes pop (p_m P) last)) /\
    (length (extremes pop (p_m P) last) <= length kept -> exists chosen, kept = extremes pop (p_m P) last ++ chosen /\
         forall before c after y dy dc, chosen = before ++ c :: after -> In y last -> ~ In y (extremes pop (p_m P) last ++ before) ->
           min_gap pop (extremes pop (p_m P) last ++ before) y dy -> min_gap pop (extremes pop (p_m P) last ++ before) c dc -> (dy <= dc)%Z).
Proof.
  intros Hit HS Hm HD Hsz Hf. unfold next_generation.
  destruct (nsls_fronts (p_iter P) pop (p_m P) Hit HD) as (fronts & -> & HF).
  pose proof HF as (HP & HN & _).
  assert (LF : length (concat fronts) = length pop) by (rewrite (Permutation_length HP); apply seq_length).
  assert (LN : length fronts <= length (concat fronts)).
  { clear - HN. induction HN as [|f l Hf HN IH]; cbn; [lia|]. rewrite app_length. destruct f; [congruence|]. cbn. lia. }
  destruct (fill_spec fronts size fuel 0 [] eq_refl) as (n & last & _ & En & -> & HL); [cbn; lia | lia | lia|].
  assert (ND : NoDup (concat fronts)) by (eapply Permutation_NoDup; [symmetry; exact HP | apply seq_NoDup]).
  assert (SP : exists r, concat fronts = concat (firstn n fronts) ++ last ++ r).
  { apply nth_error_split in En. destruct En as (l1 & l2 & -> & <-). exists (concat l2).
    rewrite firstn_app, Nat.sub_diag, firstn_all. cbn [firstn]. rewrite app_nil_r, concat_app. reflexivity. }
  destruct SP as (r & SP). rewrite SP in ND.
  apply NoDup_app_inv in ND. destruct ND as (N1 & N2 & N3). apply NoDup_app_inv in N2. destruct N2 as (N2 & _ & _).
  assert (Lne : last <> []) by (rewrite Forall_forall in HN; apply HN; eapply nth_error_In; eauto).
  destruct (select_last_spec pop sample (p_m P) (size - length (concat (firstn n fronts))) last HS Hm N2) as (kept & -> & K1 & K2 & K3 & K4 & K5); [lia | exact Lne|].
  exists (concat (firstn n fronts) ++ kept), fronts, n, last, kept. split; [reflexivity|].
  split; [rewrite app_length; lia|]. split; [apply NoDup_app_disj; auto; intros x Hx Hk; apply (N3 x Hx), in_or_app; left; auto|].
  split.
  { intros i Hi. assert (In i (seq 0 (length pop))); [|rewrite in_seq in H; lia].
    eapply Permutation_in; [exact HP|]. rewrite SP. apply in_app_or in Hi. apply in_or_app. destruct Hi as [Hi|Hi]; [now left | right].
    apply in_or_app. left. auto. }
  split; [exact HF|]. split; [exact En|]. split; [reflexivity|]. split; [exact K3|]. rewrite K1.
  split; [exact N2|]. split; [|split; [exact Lne|]; split; [exact K4 | exact K5]].
  intros i Hi. eapply Permutation_in; [exact HP|]. rewrite SP. apply in_or_app. right. apply in_or_app. now left.
Qed.

Lemma next_generation_hangs (P : params) sample size (pop : list indiv) d :
  (forall x l, Permutation (p_iter P x l) l) -> all_dim d objs pop -> length pop <= size ->
  forall fuel, next_generation P fuel sample size pop = OutOfFuel.
Proof.
  intros Hit HD Hsz fuel. unfold next_generation.
  destruct (nsls_fronts (p_iter P) pop d Hit HD) as (fronts & -> & HP & _).
  rewrite (fill_hangs fronts size); [reflexivity | | reflexivity].
  rewrite (Permutation_length HP), seq_length. exact Hsz.
Qed.

(** ---- the driver ---- *)
Section Driver.
  Variable P : params.
  Hypothesis trim_ok : forall k v, in_box_except k (p_dims P) v -> in_box_except k (p_dims P) (p_trim P v).
  Hypothesis f_dim : forall v, length (p_f P v) = p_m P.
  Hypothesis m_pos : 1 <= p_m P.
  Hypothesis iter_ok : forall x l, Permutation (p_iter P x l) l.

  Definition nsls_ok (n : nat) (s : nsls_state) : Prop :=
    Forall (fun x => in_box (p_dims P) (iv x) /\ cached_ok P x) (nl_individuals s) /\
    length (nl_individuals s) = n /\ nl_size s = n /\ fine_context P (nl_context s).

  Lemma fine_all_dim l : Forall (fine P) l -> all_dim (p_m P) objs l.
  Proof.
    intros H x Hx. rewrite Forall_forall in H. rewrite (fine_objs P x (H x Hx)). apply f_dim.
  Qed.

  Lemma unevaluated_fine l : Forall (fine P) l -> unevaluated l = [].
  Proof.
    induction 1 as [|x l (Hx & Ho) H IH]; [reflexivity|]. unfold unevaluated in *. cbn [filter]. rewrite Ho. exact IH.
  Qed.

  Lemma nsls_step_ok n D sample s : ls_good P n D -> is_sample sample -> nsls_ok n s ->
    exists inds copy ctx',
      local_search P D (fold_left (evaluate P) (nl_individuals s) ([], nl_context s)) = Some (inds ++ map fst (filter snd copy), ctx') /\
      Forall2 (fun x x' => iv x' = iv x) (nl_individuals s) inds /\ length copy = n /\
      (filter snd copy = [] -> forall fuel, nsls_step P fuel D sample s = OutOfFuel) /\
      (filter snd copy <> [] -> forall fuel, 2 * n <= fuel -> exists s', nsls_step P fuel D sample s = Done s' /\ nsls_ok n s' /\
         Forall (fine P) (nl_individuals s') /\
         (snd (fst (nl_context s)) = None -> snd (fst (nl_context s')) = None /\
            length (snd (nl_context s')) = length (snd (nl_context s)) + length (unevaluated (nl_individuals s)) + 2 * length (p_dims P) * n)).
  Proof.
    intros HD HS (HI & HL & HZ & HC1 & HC2). destruct s as [inds0 size ctx]. cbn [nl_individuals nl_size nl_context] in *.
    destruct ctx as [[c ar] tr]. cbn [fst snd] in HC1, HC2.
    destruct (evaluate_run P inds0 [] c ar tr HC2) as (inds & new & ar' & Er & HR & Har & Hno & _).
    { eapply Forall_impl; [|exact HI]. cbn. tauto. }
    cbn [app] in Er.
    assert (HF : Forall (fine P) inds).
    { apply Forall_forall. intros y Hy. apply In_nth_error in Hy. destruct Hy as (j & Hj).
      apply Forall2_nth_error in HR. destruct HR as (HRL & HR).
      destruct (nth_error inds0 j) as [x|] eqn:Ex; [|apply nth_error_None in Ex; apply nth_error_Some' in Hj; lia].
      destruct (HR j x y Ex Hj) as (V & O). rewrite Forall_forall in HI. destruct (HI x) as (B & _); [eapply nth_error_In; eauto|].
      split; congruence. }
    assert (HLi : length inds = n) by (apply Forall2_length' in HR; lia).
    assert (HC : fine_context P (c + length new, ar', tr ++ new)).
    { split; cbn [fst snd]; [rewrite app_length; lia | exact Har]. }
    rewrite <- HLi in HD.
    destruct (local_search_ok P trim_ok f_dim D inds _ HD HF HC) as (copy & ctx' & EL & HLk & HFc & HC' & HN').
    exists inds, copy, ctx'. rewrite Er, EL. split; [reflexivity|].
    split; [eapply Forall2_impl; [|exact HR]; cbn; tauto|].
    split; [apply Forall2_length' in HLk; lia|].
    unfold nsls_step. cbn [nl_individuals nl_size nl_context]. rewrite Er, EL.
    set (pop := inds ++ map fst (filter snd copy)).
    assert (HFp : Forall (fine P) pop).
    { apply Forall_app. split; [exact HF|]. rewrite Forall_map. apply Forall_forall. intros e He. apply filter_In in He.
      rewrite Forall_forall in HFc. now apply HFc. }
    assert (LP : length pop = n + length (filter snd copy)) by (unfold pop; rewrite app_length, map_length; lia).
    split.
    - intros E0 fuel. rewrite (next_generation_hangs P sample size pop (p_m P) iter_ok (fine_all_dim _ HFp)); [reflexivity|].
      rewrite LP, E0. cbn. lia.
    - intros E0 fuel Hfuel.
      assert (LF : length (filter snd copy) <= n) by (rewrite <- HLi, (Forall2_length' _ _ _ HLk); apply filter_length_le).
      destruct (next_generation_ok P fuel sample size pop iter_ok HS m_pos (fine_all_dim _ HFp))
        as (e & fronts & k & last & kept & -> & Le & _ & He & _).
      { rewrite LP, HZ. destruct (filter snd copy); [congruence | cbn; lia]. }
      { lia. }
      eexists. split; [reflexivity|]. cbn [nl_individuals nl_size nl_context].
      assert (HF' : Forall (fine P) (map (at_pos pop) e)).
      { rewrite Forall_map. apply Forall_forall. intros i Hi. rewrite Forall_forall in HFp. apply HFp. unfold at_pos.
        apply nth_In. now apply He. }
      split.
      + unfold nsls_ok. cbn [nl_individuals nl_size nl_context]. split.
        * eapply Forall_impl; [|exact HF']. intros x (B & O). split; [exact B|]. now right.
        * rewrite map_length, Le. auto.
      + split; [exact HF'|]. cbn [fst snd]. intros ->. destruct (Hno eq_refl) as (-> & ->).
        destruct (HN' eq_refl) as (N1 & N2). split; [exact N1|]. cbn [snd] in N2. rewrite N2, app_length, map_length, HLi. lia.
  Qed.

  Lemma nsls_steps_ok n fuel : forall Ds s, 2 * n <= fuel ->
    Forall (fun d => ls_good P n (fst d) /\ is_sample (snd d)) Ds -> nsls_ok n s ->
    nsls_steps P fuel Ds s = OutOfFuel \/
    exists s', nsls_steps P fuel Ds s = Done s' /\ nsls_ok n s' /\
      (snd (fst (nl_context s)) = None -> snd (fst (nl_context s')) = None /\
         length (snd (nl_context s')) = length (snd (nl_context s)) +
           (match Ds with [] => 0 | _ :: _ => length (unevaluated (nl_individuals s)) end) + length Ds * (2 * length (p_dims P) * n)).
  Proof.
    induction Ds as [|[D sample] Ds IH]; intros s Hf HD Hs; cbn [nsls_steps length].
    - right. exists s. split; [reflexivity|]. split; [exact Hs|]. intros Hn. split; [exact Hn | lia].
    - inversion HD as [|? ? (HD1 & HD2) HD3]; subst. cbn [fst snd] in *.
      destruct (nsls_step_ok n D sample s HD1 HD2 Hs) as (inds & copy & ctx' & _ & _ & _ & K1 & K2).
      destruct (filter snd copy) as [|e l] eqn:Ef.
      + left. now rewrite K1.
      + destruct (K2 ltac:(discriminate) fuel Hf) as (s1 & -> & Ok1 & F1 & N1).
        destruct (IH s1 Hf HD3 Ok1) as [->|(s' & -> & Ok' & N')]; [now left|].
        right. exists s'. split; [reflexivity|]. split; [exact Ok'|]. intros Hn. destruct (N1 Hn) as (N2 & N3).
        destruct (N' N2) as (N4 & N5). split; [exact N4|]. rewrite N5, N3, (unevaluated_fine _ F1). destruct Ds; cbn [length]; lia.
  Qed.

  Lemma nsls_init_ok ar population : (forall m k o, ar = Some m -> lookup k m = Some o -> o = p_f P k) ->
    Forall (in_box (p_dims P)) population -> nsls_ok (length population) (nsls_init P ar population).
  Proof.
    intros Har Hp. unfold nsls_ok, nsls_init. cbn [nl_individuals nl_size nl_context]. split.
    - rewrite Forall_map. eapply Forall_impl; [|exact Hp]. intros v Hv. cbn [iv]. split; [now apply trim_box|].
      now left.
    - rewrite map_length. split; [reflexivity|]. split; [reflexivity|]. split; [reflexivity|]. exact Har.
  Qed.
End Driver.
