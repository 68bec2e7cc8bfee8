(** What the truncation of the SPEA2 archive removes. *)
From Verif Require Import Spec Base MetSpec SpeaSpec DomModel DomProofs NDSortModel VarModel VarProofs
     SortModel SortProofs NsgaModel NsgaProofs MetModel MetProofs SpeaModel SpeaProofs.
From Coq Require Import Reals Lra Permutation.
Local Open Scope nat_scope.

Lemma dict_eq_same union fit x y : dict_eq union fit x y = true -> x = y \/ obj union x = obj union y.
Proof.
  unfold dict_eq. intros H. apply orb_prop in H. destruct H as [H|H]; [left; now apply Nat.eqb_eq|].
  apply andb_prop in H. destruct H as [H _]. apply andb_prop in H. destruct H as [H _]. apply andb_prop in H. destruct H as [_ H].
  right. now apply vec_eqb_spec.
Qed.

Lemma sq_dist_nonneg a b s : sq_dist a b s -> (0 <= s)%Z.
Proof. induction 1 as [|x y a b s _ IH]; [lia|]. pose proof (Z.square_nonneg (x - y)). lia. Qed.

Section Thin.
  Variable union : list member.
  Variable d : nat.
  Hypothesis D : all_dim d m_objectives union.
  Variable fit : nat -> R.

  Lemma removal e : (forall q, In q e -> q < length union) -> NoDup e -> 2 <= length e ->
    exists t e', choose_to_truncate union e = Some t /\ list_remove union fit t e = Some e' /\ thinned m_objectives union e e' /\
      NoDup e' /\ incl e' e /\ length e = S (length e').
  Proof.
    intros Hin ND H2. destruct (truncation_closest union d e D Hin ND H2) as (t & q & s & Et & It & Iq & Hne & Ha & Hm).
    destruct (list_remove_spec union fit t e It) as (y & l1 & l2 & Er & Ee & Ey).
    assert (P : Permutation e (y :: l1 ++ l2)) by (rewrite Ee; apply Permutation_sym, Permutation_middle).
    exists t, (l1 ++ l2). split; [exact Et|]. split; [exact Er|]. split; [|split; [|split]].
    - destruct (Nat.eq_dec y t) as [->|N].
      + exists t, q, s. auto.
      + assert (Iy : In y e) by (rewrite Ee; apply in_or_app; right; now left).
        destruct (dict_eq_same _ _ _ _ Ey) as [->|Eo]; [congruence|].
        exists y, t, 0%Z. split; [exact P|]. split; [exact It|]. split; [congruence|]. split.
        * replace 0%Z with (euclid_sqr_distance (obj union y) (obj union t)); [apply (apart_euclid union d D); auto|].
          rewrite <- Eo. apply euclid_self.
        * intros a b s' _ _ _ (x1 & x2 & _ & _ & S). eapply sq_dist_nonneg, S.
    - rewrite Ee in ND. now apply NoDup_remove_1 in ND.
    - intros x Hx. rewrite Ee. apply in_app_or in Hx. apply in_or_app. cbn. tauto.
    - rewrite Ee, !app_length. cbn. lia.
  Qed.

  Lemma truncate_thins fuel : forall size e r, 1 <= size -> (forall q, In q e -> q < length union) -> NoDup e ->
    truncate union fit fuel size e = Some r -> thins m_objectives union e r.
  Proof.
    induction fuel as [|fuel IH]; intros size e r Hs Hin ND H; cbn [truncate] in H.
    - destruct (length e <=? size); [|discriminate]. injection H as <-. constructor.
    - destruct (Nat.leb_spec (length e) size); [injection H as <-; constructor|].
      destruct (removal e Hin ND ltac:(lia)) as (t & e' & Et & Er & T & ND' & I' & _). rewrite Et, Er in H.
      econstructor; [exact T|]. eapply IH; [exact Hs| |exact ND'|exact H]. intros q Hq. apply Hin, I', Hq.
  Qed.
End Thin.

Lemma selection_thins union d size : 2 <= length union -> 1 <= size -> all_dim d m_objectives union ->
  forall e fit L, select_archive union size = Some (e, fit) -> nondominated_positions m_objectives union L -> size < length L ->
  exists L', Permutation L L' /\ thins m_objectives union L' e.
Proof.
  intros H Hs D e fit L E (NL & HL) Hlt. unfold select_archive in E.
  destruct (fitnesses_some union H) as (fits & Ef & Hf & _). rewrite Ef in E. cbv zeta in E.
  set (ft := fun p => nth p fits 0%R) in *.
  destruct (environmental_selection union ft size) as [e0|] eqn:Es; [|discriminate]. injection E as -> <-.
  unfold environmental_selection in Es.
  set (sorted_union := stable_sort (fun a b => Rleb (ft a) (ft b)) (ids union)) in *.
  destruct (index_filter ft sorted_union (sorted_union_sorted union ft)) as (E1 & E2).
  set (good := fun p => if Rle_dec (ft p) 1 then true else false) in *.
  set (k := get_domination_index ft sorted_union) in *.
  assert (PU : Permutation sorted_union (ids union)) by apply stable_sort_perm.
  assert (NDU : NoDup sorted_union) by (eapply Permutation_NoDup; [apply Permutation_sym, PU|apply ids_NoDup]).
  assert (PL : Permutation L (firstn k sorted_union)).
  { rewrite E1. apply NoDup_Permutation; [exact NL|now apply NoDup_filter|]. intros i. rewrite HL, filter_In.
    assert (X : In i sorted_union <-> i < length union).
    { rewrite <- ids_In. split; intros Y; [now apply (Permutation_in _ PU)|now apply (Permutation_in _ (Permutation_sym PU))]. }
    rewrite X. unfold good. split.
    - intros Hi. assert (Hi' : i < length union) by (destruct Hi as (x & Hx & _); now apply nth_error_Some' in Hx).
      split; [exact Hi'|]. apply (fit_le_one union d D fits Ef H i Hi') in Hi. fold (ft i) in Hi.
      destruct (Rle_dec (ft i) 1); [reflexivity|contradiction].
    - intros (Hi' & Hg). apply (fit_le_one union d D fits Ef H i Hi'). fold (ft i).
      destruct (Rle_dec (ft i) 1); [assumption|discriminate]. }
  exists (firstn k sorted_union). split; [exact PL|].
  rewrite (Permutation_length PL) in Hlt.
  destruct (Nat.ltb_spec (length (firstn k sorted_union)) size); [lia|].
  destruct (Nat.ltb_spec size (length (firstn k sorted_union))); [|lia].
  eapply (truncate_thins union d D ft); [exact Hs| | |exact Es].
  - intros q Hq. apply ids_In. apply (Permutation_in _ PU). rewrite <- (firstn_skipn k). apply in_or_app. now left.
  - eapply Permutation_NoDup; [exact PL|exact NL].
Qed.
