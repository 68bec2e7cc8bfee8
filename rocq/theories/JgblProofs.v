(** Proofs about the JGBL driver. *)
From Verif Require Import Spec Base DomModel DomProofs NDSortModel NDSortProofs VarSpec VarModel VarProofs SortModel SortProofs
  NsgaModel NsgaSpec NsgaProofs JgblModel JgblSpec.
From Coq Require Import QArith.
Local Open Scope nat_scope.

Lemma collect_perm {A} (a b : list (option A)) : Permutation a b -> forall r, collect a = Some r ->
  exists r', collect b = Some r' /\ Permutation r r'.
Proof.
  induction 1 as [|x l l' P IH|x y l|l l' l'' P1 IH1 P2 IH2]; intros r E.
  - exists r. split; [exact E|apply Permutation_refl].
  - cbn in *. destruct x as [x|]; [|discriminate]. destruct (collect l) as [r0|]; [|discriminate].
    destruct (IH r0 eq_refl) as (r' & -> & Q). injection E as <-. exists (x :: r'). split; [reflexivity|]. now constructor.
  - cbn in *. destruct y as [y|]; [|discriminate]. destruct x as [x|]; [|discriminate].
    destruct (collect l) as [r0|]; [|discriminate]. injection E as <-. exists (x :: y :: r0). split; [reflexivity|apply perm_swap].
  - destruct (IH1 r E) as (r1 & E1 & Q1). destruct (IH2 r1 E1) as (r2 & E2 & Q2). exists r2. split; [exact E2|].
    eapply Permutation_trans; eauto.
Qed.

Lemma collect_app {A} (a b : list (option A)) r1 r2 : collect a = Some r1 -> collect b = Some r2 ->
  collect (a ++ b) = Some (r1 ++ r2).
Proof.
  revert r1. induction a as [|x a IH]; intros r1 E1 E2; cbn in *.
  - injection E1 as <-. exact E2.
  - destruct x as [x|]; [|discriminate]. destruct (collect a) as [r0|]; [|discriminate]. injection E1 as <-.
    rewrite (IH r0 eq_refl E2). reflexivity.
Qed.

Lemma select_all l : select_positions l (seq 0 (length l)) = Some l.
Proof.
  unfold select_positions. induction l as [|a l IH] using rev_ind; [reflexivity|].
  rewrite app_length. cbn [length]. rewrite Nat.add_1_r, seq_S, map_app. cbn [map Nat.add].
  rewrite nth_error_app2 by lia. rewrite Nat.sub_diag.
  rewrite (map_ext_in (nth_error (l ++ [a])) (nth_error l)).
  - apply collect_app; [exact IH|reflexivity].
  - intros i Hi. apply in_seq in Hi. apply nth_error_app1. lia.
Qed.

Lemma select_split l surv dropped : Permutation (surv ++ dropped) (seq 0 (length l)) ->
  exists kept rest, select_positions l surv = Some kept /\ select_positions l dropped = Some rest /\
    Permutation (kept ++ rest) l.
Proof.
  intros P.
  assert (B : forall i, In i surv \/ In i dropped -> i < length l).
  { intros i Hi. apply in_or_app in Hi. eapply Permutation_in in Hi; [|exact P]. apply in_seq in Hi. lia. }
  assert (G : forall p, (forall i, In i p -> i < length l) -> exists r, select_positions l p = Some r).
  { intros p Hp. unfold select_positions. destruct (collect_map (nth_error l) (fun _ _ => True) p) as (r & E & _).
    - intros x Hx. destruct (nth_error l x) eqn:E; [eauto|]. apply nth_error_None in E. specialize (Hp x Hx). lia.
    - eauto. }
  destruct (G surv) as (kept & E1); [auto|]. destruct (G dropped) as (rest & E2); [auto|].
  exists kept, rest. split; [exact E1|]. split; [exact E2|].
  destruct (collect_perm (map (nth_error l) (surv ++ dropped)) (map (nth_error l) (seq 0 (length l)))
              (Permutation_map _ P) (kept ++ rest)) as (r' & E3 & Q).
  { rewrite map_app. apply collect_app; assumption. }
  change (select_positions l (seq 0 (length l)) = Some r') in E3. rewrite select_all in E3. injection E3 as <-. exact Q.
Qed.

Lemma select_in l pos r x : select_positions l pos = Some r -> In x r ->
  exists i, In i pos /\ nth_error l i = Some x.
Proof.
  unfold select_positions. revert r. induction pos as [|p pos IH]; intros r E Hx; cbn in *.
  - injection E as <-. destruct Hx.
  - destruct (nth_error l p) as [a|] eqn:Ep; [|discriminate]. destruct (collect _) as [r0|]; [|discriminate].
    injection E as <-. destruct Hx as [<-|Hx]; [eauto|].
    destruct (IH r0 eq_refl Hx) as (i & Hi & En). eauto.
Qed.

Lemma select_length l pos r : select_positions l pos = Some r -> length r = length pos.
Proof.
  unfold select_positions. revert r. induction pos as [|p pos IH]; intros r E; cbn in *.
  - injection E as <-. reflexivity.
  - destruct (nth_error l p) as [a|]; [|discriminate]. destruct (collect _) as [r0|]; [|discriminate].
    injection E as <-. cbn. rewrite (IH r0); reflexivity.
Qed.

Lemma select_at l pos r : select_positions l pos = Some r -> at_positions l pos r.
Proof.
  unfold select_positions, at_positions. revert r. induction pos as [|p pos IH]; intros r E; cbn in *.
  - injection E as <-. constructor.
  - destruct (nth_error l p) as [a|] eqn:Ep; [|discriminate]. destruct (collect _) as [r0|]; [|discriminate].
    injection E as <-. constructor; [exact Ep|]. apply IH. reflexivity.
Qed.

Lemma jump_genes_ok J dims nd : jump_ok dims J -> nd <> [] -> Forall (in_box dims) nd ->
  forall pop i, Forall (in_box dims) pop ->
  exists out, jump_genes J nd i pop = Some out /\ Forall (in_box dims) out /\ jumped_from J nd i pop out /\
    length out = 6 * length (filter (j_jumps J) (seq i (length pop))).
Proof.
  intros (_ & _ & HJ) Hne Hnd. induction pop as [|v pop IH]; intros i Hp; cbn [jump_genes length seq filter].
  - exists []. split; [reflexivity|]. split; [constructor|]. split; [constructor|reflexivity].
  - inversion Hp as [|? ? Hv Hp']; subst. destruct (IH (S i) Hp') as (out & -> & Ho & Hj & Hl).
    assert (Hch : forall c, in_box dims (nth (c mod length nd) nd [])).
    { intros c. rewrite Forall_forall in Hnd. apply Hnd, nth_In, Nat.mod_upper_bound. destruct nd; [congruence|discriminate]. }
    assert (Hin : forall c, In (nth (c mod length nd) nd []) nd).
    { intros c. apply nth_In, Nat.mod_upper_bound. destruct nd; [congruence|discriminate]. }
    destruct (j_jumps J i) eqn:Ej.
    + pose proof (jumped_jump J nd i v pop out _ _ Ej (Hin (j_choice J (2 * i))) (Hin (j_choice J (2 * i + 1))) Hj) as Hjj.
      unfold jump_one. destruct nd as [|n0 nd0] eqn:End; [congruence|]. rewrite <- End in *.
      destruct (HJ (2 * i) v v Hv Hv) as (_ & A1 & _ & A2).
      destruct (HJ (2 * i + 1) v _ Hv (Hch (j_choice J (2 * i)))) as (A3 & A4 & _ & _).
      destruct (HJ (2 * i + 1) v _ Hv (Hch (j_choice J (2 * i + 1)))) as (_ & _ & A5 & A6).
      destruct (j_cut J (2 * i + 1) v _) as [c1 c2]. destruct (j_copy J (2 * i + 1) v _) as [d1 d2].
      cbn [fst snd] in *. eexists. split; [reflexivity|]. split.
      * repeat (constructor; [assumption|]). exact Ho.
      * split; [exact Hjj|]. cbn [length app]. rewrite Hl. lia.
    + exists out. split; [reflexivity|]. split; [exact Ho|]. split; [constructor; assumption|exact Hl].
Qed.

Lemma filter_len_le {A} (f : A -> bool) l : length (filter f l) <= length l.
Proof. induction l as [|a l IH]; cbn; [lia|]. destruct (f a); cbn; lia. Qed.

Section Jgbl.
  Variable P : params.
  Hypothesis Hbox : valid_box (p_dims P).
  Hypothesis Htrim : forall v, in_box (p_dims P) v -> in_box (p_dims P) (p_trim P v).
  Hypothesis Hf : forall v, length (p_f P v) = p_m P.
  Hypothesis Hepsilon : (0 <= p_epsilon P)%Z.
  Hypothesis Heps : (0 < p_eps P)%Q.
  Hypothesis Hiter : forall x l, Permutation (p_iter P x l) l.

  Local Notation good := (good P).
  Local Notation inv := (inv P).

  (** Sorting and selecting with the ranks in view. *)
  Lemma sort_ranks s : Forall good (individuals s) ->
    let n := length (individuals s) in
    exists surv fit dropped fs,
      sort_and_select P s = Some (surv, fit) /\
      nsgaii_nd_sort (obj_at (individuals s)) (p_iter P) (seq 0 n) = Some fs /\
      is_peeling_of (obj_at (individuals s)) (seq 0 n) fs /\
      Permutation (surv ++ dropped) (seq 0 n) /\
      length surv = Nat.min (population_size s) n /\
      (forall x y, In x surv -> In y dropped -> front_number fs x <= front_number fs y).
  Proof.
    intros Hg n. unfold sort_and_select. fold n. set (obj := obj_at (individuals s)).
    assert (Hd : all_dim (p_m P) obj (seq 0 n)).
    { intros x Hx. apply in_seq in Hx. unfold obj.
      destruct (nth_error (individuals s) x) as [ind|] eqn:E.
      - rewrite (obj_at_good P _ _ ind Hg E). apply Hf.
      - apply nth_error_None in E. fold n in E. lia. }
    destruct (nsgaii_nd_sort_ok obj (p_m P) (p_iter P) (seq 0 n) Hiter (seq_NoDup n 0) Hd) as (fs & Hfs & Hpeel).
    rewrite Hfs.
    assert (Hnd : NoDup (concat fs)).
    { eapply Permutation_NoDup; [apply Permutation_sym; apply Hpeel|apply seq_NoDup]. }
    destruct (environmental_selection_spec (p_eps P) (front_number fs)
                (crowding (p_eps P) obj (p_m P) fs) (population_size s) (seq 0 n) Heps)
      as (dropped & HPd & Hlen & Hsel).
    { intros x _. apply crowding_nonneg; auto. }
    rewrite seq_length in Hlen.
    eexists _, _, dropped, fs. split; [reflexivity|]. split; [reflexivity|]. split; [exact Hpeel|].
    split; [exact HPd|]. split; [exact Hlen|].
    intros x y Hx Hy. destruct (Hsel x y Hx Hy) as [H|[H _]]; lia.
  Qed.

  (** The first front is the Pareto front of the individuals. *)
  Lemma first_front_pareto l fs : Forall good l ->
    is_peeling_of (obj_at l) (seq 0 (length l)) fs -> pareto_positions (p_f P) l (hd [] fs).
  Proof.
    intros Hg (HP & Hne & Hpeel).
    assert (Hnd : NoDup (concat fs)).
    { eapply Permutation_NoDup; [apply Permutation_sym; exact HP|apply seq_NoDup]. }
    assert (Hdom : forall i x y, nth_error l i = Some x -> (exists j, nth_error l j = Some y) ->
              (pareto_dom (p_f P (iv y)) (p_f P (iv x)) <-> exists j, nth_error l j = Some y /\ pareto_dom (obj_at l j) (obj_at l i))).
    { intros i x y Ex (j & Ey). split.
      - intros H. exists j. split; [exact Ey|]. rewrite (obj_at_good P l j y Hg Ey), (obj_at_good P l i x Hg Ex). exact H.
      - intros (j' & Ey' & H). rewrite (obj_at_good P l j' y Hg Ey'), (obj_at_good P l i x Hg Ex) in H. exact H. }
    destruct fs as [|f fs].
    - cbn in *. apply Permutation_nil in HP. destruct l as [|a l]; [|discriminate]. split; [constructor|].
      intros i. split; [intros []|]. intros (x & E & _). destruct i; discriminate.
    - cbn [hd]. split; [cbn in Hnd; apply NoDup_app_inv in Hnd; apply Hnd|].
      intros i. rewrite (Hpeel 0 f i eq_refl). cbn [firstn concat]. split.
      + intros (Hi & _ & Hnone). apply in_seq in Hi.
        destruct (nth_error l i) as [x|] eqn:Ex; [|apply nth_error_None in Ex; lia].
        exists x. split; [reflexivity|]. intros y Hy Hd. apply In_nth_error in Hy. destruct Hy as (j & Ey).
        apply (Hnone j); [apply in_seq; split; [lia|]; cbn; apply nth_error_Some; congruence|intros []|].
        rewrite (obj_at_good P l j y Hg Ey), (obj_at_good P l i x Hg Ex). exact Hd.
      + intros (x & Ex & Hnone). split; [apply in_seq; split; [lia|]; cbn; apply nth_error_Some; congruence|].
        split; [intros []|]. intros j Hj _ Hd. apply in_seq in Hj.
        destruct (nth_error l j) as [y|] eqn:Ey; [|apply nth_error_None in Ey; lia].
        apply (Hnone y); [eapply nth_error_In; eauto|].
        rewrite (obj_at_good P l j y Hg Ey), (obj_at_good P l i x Hg Ex) in Hd. exact Hd.
  Qed.

  Lemma sorted_in_first fs surv dropped n : NoDup (concat fs) -> Permutation (concat fs) (seq 0 n) ->
    Permutation (surv ++ dropped) (seq 0 n) ->
    (forall x y, In x surv -> In y dropped -> front_number fs x <= front_number fs y) ->
    length surv < length (hd [] fs) -> incl surv (hd [] fs) /\ exists z, In z (hd [] fs) /\ ~ In z surv.
  Proof.
    intros Hnd HP HPd Hr Hlt. destruct fs as [|f fs]; [cbn in Hlt; lia|]. cbn [hd] in *.
    assert (Hns : NoDup (surv ++ dropped)) by (eapply Permutation_NoDup; [apply Permutation_sym; exact HPd|apply seq_NoDup]).
    assert (Hf0 : NoDup f) by (cbn in Hnd; apply NoDup_app_inv in Hnd; apply Hnd).
    assert (Hz : exists z, In z f /\ ~ In z surv).
    { destruct (filter (fun z => if in_dec Nat.eq_dec z surv then false else true) f) as [|z r] eqn:E.
      - exfalso. assert (Hinc : incl f surv).
        { intros z Hz. destruct (in_dec Nat.eq_dec z surv) as [|n0]; [assumption|].
          assert (In z (filter (fun z => if in_dec Nat.eq_dec z surv then false else true) f)).
          { apply filter_In. split; [exact Hz|]. destruct (in_dec Nat.eq_dec z surv); [contradiction|reflexivity]. }
          rewrite E in H. destruct H. }
        pose proof (NoDup_incl_length Hf0 Hinc). lia.
      - assert (In z (z :: r)) by (left; reflexivity). rewrite <- E in H. apply filter_In in H. destruct H as [H1 H2].
        exists z. split; [exact H1|]. destruct (in_dec Nat.eq_dec z surv); [discriminate|assumption]. }
    split; [|exact Hz]. destruct Hz as (z & Hzf & Hzs).
    assert (Rk : forall k g x, nth_error (f :: fs) k = Some g -> In x g -> front_number (f :: fs) x = S k).
    { intros k g x Hk Hx. unfold front_number. rewrite (front_number_from_spec (f :: fs) 1 x Hnd k g); auto. }
    assert (Hzd : In z dropped).
    { assert (In z (surv ++ dropped)).
      { eapply Permutation_in; [apply Permutation_sym; exact HPd|]. eapply Permutation_in; [exact HP|].
        cbn. apply in_or_app. left. exact Hzf. }
      apply in_app_or in H. destruct H; [contradiction|assumption]. }
    intros x Hx. assert (Hxc : In x (concat (f :: fs))).
    { eapply Permutation_in; [apply Permutation_sym; exact HP|]. eapply Permutation_in; [exact HPd|]. apply in_or_app; auto. }
    apply in_concat in Hxc. destruct Hxc as (g & Hg & Hxg). apply In_nth_error in Hg. destruct Hg as (k & Hk).
    specialize (Hr x z Hx Hzd). rewrite (Rk k g x Hk Hxg), (Rk 0 f z eq_refl Hzf) in Hr.
    assert (k = 0) by lia. subst k. cbn in Hk. injection Hk as <-. exact Hxg.
  Qed.

  (** Members of NSGA-II's new population: N of them from the old population, then M offspring. *)
  Lemma step_shape N M D s : 1 <= N -> inv N M s ->
    exists s', step P D s = Some s' /\ inv N M s' /\ length (individuals s') = N + M /\ added s s' M /\
      incl (firstn N (individuals s')) (individuals s).
  Proof.
    intros HN Hi. destruct (step_ok P Hbox Htrim Hf Hepsilon Heps Hiter N M D s HN Hi) as (s' & E & Hi' & HL & Ha).
    exists s'. split; [exact E|]. split; [exact Hi'|]. split; [exact HL|]. split; [exact Ha|].
    destruct Hi as (Hg & HsN & HsM & HLs & Har & Hcost).
    unfold step in E. destruct (sort_and_select_ok P Hf Heps Hiter s Hg) as (surv & fit & dropped & Hss & HP & Hlen & _).
    rewrite Hss in E. destruct (mating_selection _ _ _ _) as [mating|]; [|discriminate].
    destruct (collect _) as [children|]; [|discriminate].
    destruct (select_positions (individuals s) surv) as [kept|] eqn:Ek; [|discriminate]. injection E as <-.
    unfold calculate_objectives. cbn [with_individuals individuals cost archive evals].
    assert (Hkg : Forall good kept).
    { apply Forall_forall. intros x Hx. destruct (select_in _ _ _ _ Ek Hx) as (i & _ & En).
      rewrite Forall_forall in Hg. apply Hg. eapply nth_error_In; eauto. }
    assert (Hkl : length kept = N) by (rewrite (select_length _ _ _ Ek), Hlen, HsN; lia).
    assert (Hki : incl kept (individuals s)).
    { intros x Hx. destruct (select_in _ _ _ _ Ek Hx) as (i & _ & En). eapply nth_error_In; eauto. }
    rewrite fold_left_app.
    assert (E1 : forall l done c ar tr, Forall good l -> fold_left (evaluate P) l (done, (c, ar, tr)) = (done ++ l, (c, ar, tr))).
    { clear. induction l as [|i l IH]; intros done c ar tr H; cbn [fold_left]; [rewrite app_nil_r; reflexivity|].
      inversion H as [|? ? [_ Hi] Hl]; subst. unfold evaluate at 2. rewrite Hi, IH by exact Hl. rewrite <- app_assoc. reflexivity. }
    rewrite (E1 kept) by exact Hkg. cbn [app].
    assert (E2 : forall l done c ar tr, exists l' q, fold_left (evaluate P) l (done, (c, ar, tr)) = (done ++ l', q)).
    { clear. induction l as [|i l IH]; intros done c ar tr; cbn [fold_left]; [exists [], (c, ar, tr); rewrite app_nil_r; reflexivity|].
      unfold evaluate at 2. destruct (iobj i).
      - destruct (IH (done ++ [i]) c ar tr) as (l' & q & ->). exists (i :: l'), q. rewrite <- app_assoc. reflexivity.
      - destruct (match ar with Some m => lookup (iv i) m | None => None end) as [o|].
        + destruct (IH (done ++ [mk_indiv (iv i) (Some o)]) c ar tr) as (l' & q & ->). eexists (_ :: l'), q. rewrite <- app_assoc. reflexivity.
        + destruct (IH (done ++ [mk_indiv (iv i) (Some (p_f P (iv i)))]) (S c)
            (match ar with Some m => Some ((iv i, p_f P (iv i)) :: m) | None => None end) (tr ++ [iv i])) as (l' & q & ->).
          eexists (_ :: l'), q. rewrite <- app_assoc. reflexivity. }
    destruct (E2 children kept (cost s) (archive s) (evals s)) as (l' & [[c ar] tr] & ->). cbn [individuals].
    rewrite firstn_app, Hkl, Nat.sub_diag, firstn_O, app_nil_r, <- Hkl, firstn_all. exact Hki.
  Qed.

  (** An evaluated individual is determined by its vector. *)
  Definition seen (i : indiv) : indiv := mk_indiv (iv i) (Some (p_f P (iv i))).
  Lemma good_seen l : Forall good l -> map seen l = l.
  Proof.
    induction 1 as [|i l [_ H] Hl IH]; [reflexivity|]. cbn [map]. rewrite IH. f_equal. unfold seen.
    rewrite <- H. destruct i; reflexivity.
  Qed.
  Lemma good_same l l' : Forall good l' -> map iv l' = map iv l -> l' = map seen l.
  Proof.
    revert l'. induction l as [|i l IH]; intros l' Hg E; destruct l' as [|i' l']; cbn in *; try discriminate; [reflexivity|].
    inversion Hg as [|? ? [_ H] Hl]; subst. injection E as E1 E2. rewrite <- (IH l' Hl E2). f_equal. unfold seen.
    rewrite <- E1, <- H. destruct i'; reflexivity.
  Qed.

  Lemma jstep_ok N M D J s : 1 <= N -> inv N M s -> jump_ok (p_dims P) J ->
    exists plain s', step P D s = Some plain /\ jstep P D J s = Some s' /\ inv N M s' /\
      inv N M plain /\ added s plain M /\ length (individuals plain) = N + M /\
      incl (firstn N (individuals plain)) (individuals s) /\
      exists union front,
        Permutation union (individuals s ++ skipn N (individuals plain)) /\
        pareto_positions (p_f P) union front /\
        (length front <= N -> s' = plain) /\
        (N < length front ->
           length (individuals s') = N /\ added plain s' (6 * jumpers J N) /\
           exists kept jumped dropped,
             (exists ks ps partners out, Permutation (ks ++ ps) front /\
                at_positions union ks kept /\ at_positions union ps partners /\
                jumped_from J (map iv partners) 0 (map iv kept) out /\
                map iv jumped = map (p_trim P) out) /\
             length kept = N /\ length jumped = 6 * jumpers J N /\
             Permutation (individuals s' ++ dropped) (kept ++ jumped) /\
             (forall x y, In x (individuals s') -> In y dropped -> ~ pareto_dom (p_f P (iv y)) (p_f P (iv x)))).
  Proof.
    intros HN Hi HJ. destruct (step_shape N M D s HN Hi) as (plain & Estep & Hip & HLp & Hadd & Hincl).
    exists plain. unfold jstep. rewrite Estep.
    destruct Hi as (Hg & HsN & HsM & HLs & Har & Hcost).
    pose proof Hip as (Hpg & HpN & HpM & HpL & Hpar & Hpcost).
    rewrite HsN, (Nat.min_l N) by exact HLs.
    set (union := j_union J (individuals s ++ skipn N (individuals plain))).
    assert (Hup : Permutation union (individuals s ++ skipn N (individuals plain))) by apply HJ.
    set (s2 := with_individuals plain union).
    assert (Hug : Forall good (individuals s2)).
    { cbn [s2 with_individuals individuals]. eapply Permutation_Forall; [apply Permutation_sym; exact Hup|].
      apply Forall_app. split; [exact Hg|]. rewrite <- (firstn_skipn N (individuals plain)) in Hpg.
      apply Forall_app in Hpg. apply Hpg. }
    destruct (sort_ranks s2 Hug) as (surv & fit & dropped & fs & Ess & Efs & Hpeel & HPd & Hlen & Hrank).
    rewrite Ess, Efs.
    pose proof (first_front_pareto (individuals s2) fs Hug Hpeel) as Hpar1.
    assert (HLu : length (individuals s2) = length (individuals s) + M).
    { cbn [s2 with_individuals individuals]. rewrite (Permutation_length Hup), app_length, skipn_length. lia. }
    assert (Hsl : length surv = N).
    { rewrite Hlen. cbn [s2 with_individuals population_size]. rewrite HpN. apply Nat.min_l. fold s2. rewrite HLu. lia. }
    rewrite Hsl. destruct (N <? length (hd [] fs)) eqn:Elt.
    - apply Nat.ltb_lt in Elt.
      assert (Hnd : NoDup (concat fs)).
      { eapply Permutation_NoDup; [apply Permutation_sym; apply Hpeel|apply seq_NoDup]. }
      destruct (sorted_in_first fs surv dropped _ Hnd (proj1 Hpeel) HPd Hrank) as (Hfirst & z & Hz1 & Hz2); [lia|].
      destruct (select_split (individuals s2) surv dropped HPd) as (kept & rest & Ek & _ & HPk).
      set (others := filter (fun n => negb (existsb (Nat.eqb n) surv)) (hd [] fs)).
      destruct (select_positions_ok (individuals s2) others) as (nd & End & Hndl & Hndi).
      { apply Forall_forall. intros i Hii. apply filter_In in Hii. destruct Hii as [Hii _].
        apply Hpar1 in Hii. destruct Hii as (x & Ex & _). apply nth_error_Some. congruence. }
      rewrite Ek, End.
      assert (Hkg : Forall good kept).
      { apply Forall_forall. intros x Hx. destruct (select_in _ _ _ _ Ek Hx) as (i & _ & En).
        rewrite Forall_forall in Hug. apply Hug. eapply nth_error_In; eauto. }
      assert (Hndg : Forall good nd) by (eapply Forall_incl; eauto).
      assert (Hzo : In z others).
      { apply filter_In. split; [exact Hz1|]. apply negb_true_iff. apply not_true_iff_false. intros Ee.
        apply existsb_exists in Ee. destruct Ee as (w & Hw & Ew). apply Nat.eqb_eq in Ew. subst w. contradiction. }
      destruct (jump_genes_ok J (p_dims P) (map iv nd) HJ) with (pop := map iv kept) (i := 0) as (jumping & -> & Hjb & Hjf & Hjl).
      { intros E. apply map_eq_nil in E. subst nd. cbn in Hndl. destruct others; [destruct Hzo|discriminate]. }
      { apply Forall_map. now apply good_box. }
      { apply Forall_map. now apply good_box. }
      rewrite map_length, (select_length _ _ _ Ek), Hsl in Hjl. fold (jumpers J N) in Hjl.
      set (new := map (fun v => mk_indiv (p_trim P v) None) jumping).
      assert (Hnew : Forall (fun i => in_box (p_dims P) (iv i) /\ iobj i = None) new).
      { unfold new. apply Forall_map. eapply Forall_impl; [|exact Hjb]. cbn. auto. }
      set (l3 := j_union2 J (kept ++ new)).
      assert (HP3 : Permutation l3 (kept ++ new)) by apply HJ.
      destruct (calculate_objectives_ok P (with_individuals s2 l3)) as (G1 & G2 & G3 & G4 & G5 & nw & G6 & G7 & G8 & G9).
      { exact Hpar. }
      { cbn [with_individuals individuals]. eapply Permutation_Forall; [apply Permutation_sym; exact HP3|].
        apply Forall_app. split; [now apply good_cached|]. eapply Forall_impl; [|exact Hnew]. intros i [_ E]. now left. }
      { cbn [with_individuals individuals]. eapply Permutation_Forall; [apply Permutation_sym; exact HP3|].
        apply Forall_app. split; [now apply good_box|]. eapply Forall_impl; [|exact Hnew]. intros i [E _]. exact E. }
      set (s3 := calculate_objectives P (with_individuals s2 l3)) in *.
      cbn [with_individuals individuals population_size mating_size cost evals archive s2] in G2, G3, G4, G6, G7, G8, G9.
      assert (E3 : individuals s3 = map seen l3) by (apply good_same; assumption).
      destruct (sort_and_select_ok P Hf Heps Hiter s3 G1) as (surv3 & fit3 & dropped3 & Ess3 & HPd3 & Hlen3 & Hel3).
      rewrite Ess3. destruct (select_split (individuals s3) surv3 dropped3 HPd3) as (kept3 & rest3 & Ek3 & Er3 & HPk3).
      rewrite Ek3. eexists. split; [reflexivity|]. split; [reflexivity|].
      assert (Hk3g : Forall good kept3).
      { apply Forall_forall. intros x Hx. rewrite Forall_forall in G1. apply G1.
        eapply Permutation_in; [exact HPk3|]. apply in_or_app; auto. }
      assert (Hl3 : length (individuals s3) = N + 6 * jumpers J N).
      { rewrite E3, map_length, (Permutation_length HP3), app_length, (select_length _ _ _ Ek), Hsl. unfold new.
        rewrite map_length, Hjl. reflexivity. }
      assert (Hk3l : length kept3 = N) by (rewrite (select_length _ _ _ Ek3), Hlen3, Hl3, G3, HpN; lia).
      split.
      { split; [exact Hk3g|]. split; [cbn; congruence|]. split; [cbn; congruence|]. split; [cbn; lia|].
        split; [exact G5|]. cbn [with_individuals evals cost]. rewrite G6, G7, app_length. lia. }
      split; [exact Hip|]. split; [exact Hadd|]. split; [exact HLp|]. split; [exact Hincl|].
      exists union, (hd [] fs). split; [exact Hup|]. split; [exact Hpar1|]. split; [intros; lia|]. intros _.
      split; [exact Hk3l|]. split.
      { exists nw. cbn [with_individuals evals archive]. split; [exact G6|]. split; [|exact G9].
        intros Hn. destruct (G8 Hn) as [A1 A2]. split; [exact A1|]. rewrite A2, map_length.
        unfold unevaluated. rewrite (Permutation_length (filter_perm _ _ _ HP3)), filter_app, app_length.
        fold (unevaluated kept). rewrite (unevaluated_none P kept Hkg). cbn [length Nat.add].
        rewrite filter_all; [unfold new; rewrite map_length; exact Hjl|].
        intros c Hc. rewrite Forall_forall in Hnew. destruct (Hnew c Hc) as [_ ->]. reflexivity. }
      exists kept, (map seen new), rest3. split.
      { exists surv, others, nd, jumping.
        assert (Hns : NoDup surv).
        { assert (Hns : NoDup (surv ++ dropped)) by (eapply Permutation_NoDup; [apply Permutation_sym; exact HPd|apply seq_NoDup]).
          apply NoDup_app_inv in Hns. apply Hns. }
        split; [apply NoDup_Permutation|].
        - apply NoDup_app_disj; [exact Hns|apply NoDup_filter; apply Hpar1|].
          intros i H1 H2. apply filter_In in H2. destruct H2 as [_ H2]. apply negb_true_iff in H2.
          assert (existsb (Nat.eqb i) surv = true) by (apply existsb_exists; exists i; split; [exact H1|apply Nat.eqb_refl]). congruence.
        - apply Hpar1.
        - intros i. rewrite in_app_iff. split.
          + intros [H1|H1]; [apply Hfirst; exact H1|]. apply filter_In in H1. apply H1.
          + intros H1. destruct (existsb (Nat.eqb i) surv) eqn:Ee.
            * left. apply existsb_exists in Ee. destruct Ee as (w & Hw & Ew). apply Nat.eqb_eq in Ew. subst w. exact Hw.
            * right. apply filter_In. split; [exact H1|]. rewrite Ee. reflexivity.
        - split; [apply select_at; exact Ek|]. split; [apply select_at; exact End|]. split; [exact Hjf|].
          unfold new. rewrite !map_map. reflexivity. }
      split; [rewrite (select_length _ _ _ Ek); exact Hsl|].
      split; [unfold new; rewrite !map_length; exact Hjl|]. split.
      { cbn [with_individuals individuals]. eapply Permutation_trans; [exact HPk3|]. rewrite E3.
        eapply Permutation_trans; [apply Permutation_map; exact HP3|]. rewrite map_app, (good_seen kept Hkg). apply Permutation_refl. }
      cbn [with_individuals individuals]. intros x y Hx Hy Hd.
      destruct (select_in _ _ _ _ Ek3 Hx) as (i & Hii & Ei). destruct (select_in _ _ _ _ Er3 Hy) as (j & Hj & Ej).
      apply (Hel3 i j Hii Hj). rewrite (obj_at_good P _ j y G1 Ej), (obj_at_good P _ i x G1 Ei). exact Hd.
    - apply Nat.ltb_ge in Elt. exists plain. split; [reflexivity|]. split; [reflexivity|]. split; [exact Hip|].
      split; [exact Hip|]. split; [exact Hadd|]. split; [exact HLp|]. split; [exact Hincl|].
      exists union, (hd [] fs). split; [exact Hup|]. split; [exact Hpar1|]. split; [reflexivity|]. intros; lia.
  Qed.

  Lemma jumpers_le J n : jumpers J n <= n.
  Proof. unfold jumpers. rewrite <- (seq_length n 0) at 2. apply filter_len_le. Qed.

  Lemma run_jops_ok N M ops : 1 <= N -> Forall (jop_ok (p_dims P)) ops -> forall s, inv N M s ->
    exists s', run_jops P s ops = Some s' /\ inv N M s' /\
      (length (individuals s) = N \/ length (individuals s) = N + M ->
       length (individuals s') = N \/ length (individuals s') = N + M) /\
      (archive s = None -> archive s' = None /\ cost s + jsteps_in ops * M <= cost s' /\
         cost s' <= cost s + jsteps_in ops * (M + 6 * N)) /\
      (forall m0, fresh_evals m0 s -> fresh_evals m0 s').
  Proof.
    intros HN Hops. induction Hops as [|o ops Ho Hops IH]; intros s Hi; cbn [run_jops].
    - exists s. split; [reflexivity|]. split; [exact Hi|]. split; [auto|]. split; [|auto].
      intros H. split; [exact H|]. unfold jsteps_in. cbn. lia.
    - assert (Hop : exists s1, run_jop P s o = Some s1 /\ inv N M s1 /\
                (length (individuals s1) = N \/ length (individuals s1) = N + M) /\
                (archive s = None -> archive s1 = None /\
                   cost s + (if is_jstep o then M else 0) <= cost s1 /\
                   cost s1 <= cost s + (if is_jstep o then M + 6 * N else 0)) /\
                (forall m0, fresh_evals m0 s -> fresh_evals m0 s1)).
      { destruct o as [D J|]; cbn [run_jop is_jstep].
        - destruct (jstep_ok N M D J s HN Hi Ho) as (plain & s1 & _ & Es & Hi1 & Hip & Hadd & HLp & _ & union & front & _ & _ & Hle & Hgt).
          exists s1. split; [exact Es|]. split; [exact Hi1|].
          destruct (Nat.le_gt_cases (length front) N) as [Hc|Hc].
          + rewrite (Hle Hc) in *. split; [right; exact HLp|]. split.
            * intros Hn. destruct Hadd as (new & En & H1 & _). destruct (H1 Hn) as [A1 A2]. split; [exact A1|].
              destruct Hi as (_ & _ & _ & _ & _ & Hcs). destruct Hip as (_ & _ & _ & _ & _ & Hc1).
              rewrite Hc1, En, app_length. lia.
            * intros m0 Hfr. eapply added_fresh; eauto.
          + destruct (Hgt Hc) as (HL1 & Hadd1 & _). split; [left; exact HL1|]. split.
            * intros Hn. destruct Hadd as (new & En & H1 & _). destruct (H1 Hn) as [A1 A2].
              destruct Hadd1 as (new1 & En1 & H1' & _). destruct (H1' A1) as [A1' A2'].
              split; [exact A1'|]. pose proof (jumpers_le J N).
              destruct Hi as (_ & _ & _ & _ & _ & Hcs). destruct Hi1 as (_ & _ & _ & _ & _ & Hc1).
              rewrite Hc1, En1, En, !app_length. lia.
            * intros m0 Hfr. eapply added_fresh; [|exact Hadd1]. eapply added_fresh; eauto.
        - destruct (finish_ok P Hf Heps Hiter N M s Hi) as (s1 & out & Hs & Hi1 & HL & _ & _ & EC & EE & EA).
          rewrite Hs. exists s1. split; [reflexivity|]. split; [exact Hi1|]. split; [auto|]. split.
          + intros Hn. rewrite EA. split; [exact Hn|]. lia.
          + intros m0 (A & B & C). unfold fresh_evals. rewrite EE, EA. auto. }
      destruct Hop as (s1 & Hs1 & Hi1 & HL1 & Hc1 & Hf1). rewrite Hs1.
      destruct (IH s1 Hi1) as (s' & Hs' & Hi' & HL' & Hc' & Hf').
      exists s'. split; [exact Hs'|]. split; [exact Hi'|]. split; [auto|]. split; [|auto].
      intros Hn. destruct (Hc1 Hn) as (A1 & A2 & A3). destruct (Hc' A1) as (B1 & B2 & B3). split; [exact B1|].
      unfold jsteps_in in *. cbn [filter]. destruct (is_jstep o); cbn [length]; lia.
  Qed.

  Lemma jgbl_run mating population ops :
    Forall (in_box (p_dims P)) population -> population <> [] -> Forall (jop_ok (p_dims P)) ops ->
    let N := length population in
    let M := mating N in
    exists s, run_jops P (init P mating None population) ops = Some s /\
      Forall good (individuals s) /\
      (length (individuals s) = N \/ length (individuals s) = N + M) /\
      cost s = length (evals s) /\
      N + jsteps_in ops * M <= cost s <= N + jsteps_in ops * (M + 6 * N) /\
      exists s' out, finish P s = Some (s', out) /\ length out = N /\
        Forall (in_box (p_dims P)) out /\ cost s' = cost s.
  Proof.
    intros Hb Hne Hops N M.
    destruct (init_ok P Htrim mating None population Hb) as (Hi & HL & Hc & _); [intros m k o; discriminate|].
    destruct (Hc eq_refl) as [Ha Hcost].
    assert (HN : 1 <= N) by (unfold N; destruct population; [congruence|simpl; lia]).
    destruct (run_jops_ok N M ops HN Hops _ Hi) as (s & Hs & Hi' & HL' & Hc' & _).
    destruct (Hc' Ha) as (_ & H1 & H2). rewrite Hcost in H1, H2.
    exists s. split; [exact Hs|]. split; [apply Hi'|]. split; [apply HL'; left; exact HL|].
    split; [apply Hi'|]. split; [split; [exact H1|exact H2]|].
    destruct (finish_ok P Hf Heps Hiter N M s Hi') as (s' & out & F1 & _ & _ & F2 & F3 & F4 & _).
    exists s', out. auto.
  Qed.

  Lemma jgbl_run_archive mating m0 population ops :
    Forall (in_box (p_dims P)) population -> population <> [] -> Forall (jop_ok (p_dims P)) ops ->
    (forall k o, lookup k m0 = Some o -> o = p_f P k) ->
    exists s m, run_jops P (init P mating (Some m0) population) ops = Some s /\
      Forall good (individuals s) /\
      cost s = length (evals s) /\
      NoDup (evals s) /\
      (forall v, In v (evals s) -> lookup v m0 = None) /\
      archive s = Some m /\
      (forall v, lookup v m <> None <-> lookup v m0 <> None \/ In v (evals s)) /\
      (forall v o, lookup v m = Some o -> o = p_f P v).
  Proof.
    intros Hb Hne Hops Hm0.
    destruct (init_ok P Htrim mating (Some m0) population Hb) as (Hi & HL & _ & Hc).
    { intros m k o E Hk. injection E as <-. auto. }
    destruct (Hc m0 eq_refl) as (m1 & E1 & Hnd & Hv & Hm1).
    assert (HN : 1 <= length population) by (destruct population; [congruence|simpl; lia]).
    destruct (run_jops_ok _ _ ops HN Hops _ Hi) as (s & Hs & Hi' & _ & _ & Hfr).
    destruct (Hfr m0) as (F1 & F2 & m & Em & F3).
    { split; [auto|]. split; [auto|]. exists m1. auto. }
    exists s, m. split; [auto|]. split; [apply Hi'|]. split; [apply Hi'|].
    split; [exact F1|]. split; [exact F2|]. split; [exact Em|]. split; [exact F3|]. intros v o Hk.
    destruct Hi' as (_ & _ & _ & _ & Har & _). eapply Har; eauto.
  Qed.
End Jgbl.
