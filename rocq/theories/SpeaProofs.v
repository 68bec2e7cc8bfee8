(** Proofs about the SPEA2 model. *)
From Verif Require Import Spec Base MetSpec SpeaSpec DomModel DomProofs NDSortModel VarModel VarProofs
     SortModel SortProofs NsgaModel NsgaProofs MetModel MetProofs SpeaModel.
From Coq Require Import Reals Lra Psatz.
Local Open Scope nat_scope.

Lemma Rleb_total a b : Rleb a b = false -> Rleb b a = true.
Proof. unfold Rleb. destruct (Rle_dec a b), (Rle_dec b a); auto; lra. Qed.
Lemma Rleb_trans a b c : Rleb a b = true -> Rleb b c = true -> Rleb a c = true.
Proof. unfold Rleb. destruct (Rle_dec a b), (Rle_dec b c), (Rle_dec a c); auto; try discriminate; lra. Qed.
Lemma Rleb_le a b : Rleb a b = true <-> (a <= b)%R.
Proof. unfold Rleb. destruct (Rle_dec a b); split; auto; try discriminate; contradiction. Qed.

Section S.
  Variable union : list member.
  Notation ids := (ids union).
  Notation obj := (obj union).
  Notation n := (length union).

  Lemma ids_In p : In p ids <-> p < n.
  Proof. unfold SpeaModel.ids. rewrite in_seq. lia. Qed.
  Lemma ids_length : length ids = n.
  Proof. apply seq_length. Qed.
  Lemma ids_NoDup : NoDup ids.
  Proof. apply seq_NoDup. Qed.

  Lemma obj_at p m : nth_error union p = Some m -> obj p = m_objectives m.
  Proof. intros H. unfold SpeaModel.obj. now rewrite (nth_error_nth _ _ _ H). Qed.

  Lemma at_pos p : p < n -> exists m, nth_error union p = Some m /\ obj p = m_objectives m.
  Proof.
    intros H. destruct (nth_error union p) as [m|] eqn:E.
    - exists m. split; auto. now apply obj_at.
    - apply nth_error_None in E. lia.
  Qed.

  Variable d : nat.
  Hypothesis dim : all_dim d m_objectives union.

  Lemma obj_dim p : p < n -> length (obj p) = d.
  Proof. intros H. destruct (at_pos p H) as (m & E & ->). apply dim. now apply nth_error_In in E. Qed.

  Lemma dom_obj p q : p < n -> q < n -> (dominates (obj p) (obj q) = true <-> pareto_dom (obj p) (obj q)).
  Proof. intros Hp Hq. apply dominates_spec. now rewrite !obj_dim. Qed.

  Lemma strength_pos p q : p < n -> q < n -> pareto_dom (obj p) (obj q) -> 1 <= strength union p.
  Proof.
    intros Hp Hq H. unfold strength.
    assert (Hin : In q (filter (fun x => negb (p =? x) && dominates (obj p) (obj x)) ids)).
    { apply filter_In. split; [now apply ids_In|]. apply andb_true_iff. split.
      - apply negb_true_iff, Nat.eqb_neq. intros ->. now apply pareto_dom_irrefl in H.
      - now apply dom_obj. }
    destruct (filter _ ids); [destruct Hin | simpl; lia].
  Qed.

  Lemma fold_add_acc (g : nat -> nat) (l : list nat) a :
    fold_left (fun s y => s + g y) l a = a + fold_left (fun s y => s + g y) l 0.
  Proof.
    revert a. induction l as [|x l IH]; intros a; cbn [fold_left]; [lia|].
    rewrite IH, (IH (0 + g x)). lia.
  Qed.

  Lemma fold_add_ge (g : nat -> nat) (l : list nat) x : In x l -> g x <= fold_left (fun s y => s + g y) l 0.
  Proof.
    induction l as [|y l IH]; intros H; [destruct H|]. cbn [fold_left]. rewrite fold_add_acc.
    destruct H as [->|H]; [lia|]. specialize (IH H). lia.
  Qed.

  Lemma raw_zero p : p < n ->
    (raw_fitness union p = 0 <-> nondominated_in m_objectives union (nth p union (mk_member [] []))).
  Proof.
    intros Hp. unfold raw_fitness. split.
    - intros H y Hy Hd. apply In_nth_error in Hy. destruct Hy as (q & Eq).
      assert (Hq : q < n) by (apply nth_error_Some; congruence).
      assert (Hd' : pareto_dom (obj q) (obj p)) by (rewrite (obj_at q y Eq); exact Hd).
      pose proof (strength_pos q p Hq Hp Hd') as S1.
      pose proof (fold_add_ge (strength union) (filter (fun y => dominates (obj y) (obj p)) ids) q) as G.
      rewrite H in G. assert (In q (filter (fun y => dominates (obj y) (obj p)) ids)); [|specialize (G H0); lia].
      apply filter_In. split; [now apply ids_In|]. now apply dom_obj.
    - intros H. rewrite filter_none; [reflexivity|]. intros q Hq. apply ids_In in Hq.
      destruct (dominates (obj q) (obj p)) eqn:E; [|reflexivity]. exfalso.
      apply dom_obj in E; auto. destruct (at_pos q Hq) as (m & Em & Eo).
      apply (H m); [now apply nth_error_In in Em|]. now rewrite <- Eo.
  Qed.

  Lemma density_range p r : density union p = Some r -> (0 < r <= 1 / 2)%R.
  Proof.
    unfold density. destruct (nth_error _ _) as [z|]; [|discriminate]. intros [= <-].
    pose proof (sqrt_pos (IZR z)) as S0. split.
    - apply Rdiv_lt_0_compat; lra.
    - unfold Rdiv. rewrite !Rmult_1_l. apply Rinv_le_contravar; lra.
  Qed.

  Lemma density_some p : 2 <= n -> exists r, density union p = Some r.
  Proof.
    intros H. unfold density.
    destruct (nth_error _ _) as [z|] eqn:E; [eexists; reflexivity|]. exfalso.
    apply nth_error_None in E. rewrite stable_sort_length, map_length, ids_length in E.
    pose proof (Nat.sqrt_lt_lin n). lia.
  Qed.

  Lemma fitnesses_some : 2 <= n ->
    exists fits, calculate_fitnesses union = Some fits /\ length fits = n /\
      forall p, p < n -> exists r, density union p = Some r /\ nth p fits 0%R = (INR (raw_fitness union p) + r)%R.
  Proof.
    intros H. unfold calculate_fitnesses.
    destruct (comprehension_total (fun p => match density union p with None => None | Some d => Some (INR (raw_fitness union p) + d)%R end) ids) as (fits & E).
    { intros p Hp. destruct (density_some p H) as (r & Er). rewrite Er. eexists; reflexivity. }
    exists fits. split; [exact E|].
    apply comprehension_spec in E. pose proof (Forall2_length' _ _ _ E) as HL. rewrite ids_length in HL.
    split; [lia|]. intros p Hp.
    apply Forall2_nth_error in E. destruct E as (_ & E).
    assert (E1 : nth_error ids p = Some p).
    { unfold SpeaModel.ids. rewrite nth_error_nth' with (d := 0) by (rewrite seq_length; lia). now rewrite seq_nth. }
    destruct (nth_error fits p) as [y|] eqn:E2; [|apply nth_error_None in E2; lia].
    specialize (E p p y E1 E2). cbn in E. destruct (density union p) as [r|]; [|discriminate].
    exists r. split; [reflexivity|]. injection E as E. rewrite (nth_error_nth _ _ _ E2). congruence.
  Qed.

  Lemma fit_le_one fits : calculate_fitnesses union = Some fits -> 2 <= n -> forall p, p < n ->
    ((nth p fits 0 <= 1)%R <-> nondominated_at m_objectives union p).
  Proof.
    intros E H p Hp. destruct (fitnesses_some H) as (fits' & E' & HL & HF).
    assert (fits' = fits) by congruence. subst fits'.
    destruct (HF p Hp) as (r & Er & ->). apply density_range in Er.
    destruct (at_pos p Hp) as (m & Em & _).
    assert (NA : nondominated_at m_objectives union p <-> raw_fitness union p = 0).
    { rewrite raw_zero by exact Hp. unfold nondominated_at. rewrite (nth_error_nth _ _ _ Em). rewrite Em. split.
      - intros (x & [= <-] & Hx). exact Hx.
      - intros Hx. exists m. auto. }
    rewrite NA. destruct (raw_fitness union p) as [|k] eqn:Ek.
    - cbn [INR]. split; [reflexivity | lra].
    - rewrite S_INR. pose proof (pos_INR k). split; [lra | discriminate].
  Qed.

  (** Dominance is reflected by the raw fitness. *)
  Lemma fold_add_incl (g : nat -> nat) (l l' : list nat) x :
    NoDup l -> incl l l' -> In x l' -> ~ In x l ->
    fold_left (fun s y => s + g y) l 0 + g x <= fold_left (fun s y => s + g y) l' 0.
  Proof.
    intros ND. revert l'. induction ND as [|a l Ha ND IH]; intros l' HI Hx Hnx.
    - cbn [fold_left]. pose proof (fold_add_ge g l' x Hx). lia.
    - assert (Hal : In a l') by (apply HI; now left).
      apply in_split in Hal. destruct Hal as (l1 & l2 & ->).
      cbn [fold_left]. rewrite fold_add_acc.
      assert (E : fold_left (fun s y => s + g y) (l1 ++ a :: l2) 0
                  = g a + fold_left (fun s y => s + g y) (l1 ++ l2) 0).
      { rewrite !fold_left_app. cbn [fold_left]. rewrite fold_add_acc. rewrite (fold_add_acc g l2 (fold_left _ l1 0)). lia. }
      rewrite E. specialize (IH (l1 ++ l2)).
      assert (HI' : incl l (l1 ++ l2)).
      { intros y Hy. assert (Hy' : In y (l1 ++ a :: l2)) by (apply HI; now right).
        apply in_app_or in Hy'. destruct Hy' as [Hy'|[<-|Hy']]; [| contradiction |]; apply in_or_app; auto. }
      assert (Hx' : In x (l1 ++ l2)).
      { apply in_app_or in Hx. destruct Hx as [Hx|[<-|Hx]]; [| exfalso; apply Hnx; now left |]; apply in_or_app; auto. }
      assert (Hn' : ~ In x l) by (intro; apply Hnx; now right).
      specialize (IH HI' Hx' Hn'). lia.
  Qed.

  Lemma raw_monotone p q : p < n -> q < n -> pareto_dom (obj p) (obj q) ->
    raw_fitness union p + 1 <= raw_fitness union q.
  Proof.
    intros Hp Hq H. unfold raw_fitness.
    pose proof (strength_pos p q Hp Hq H) as S1.
    pose proof (fold_add_incl (strength union) (filter (fun y => dominates (obj y) (obj p)) ids)
                  (filter (fun y => dominates (obj y) (obj q)) ids) p) as G.
    assert (G' : fold_left (fun s y => s + strength union y) (filter (fun y => dominates (obj y) (obj p)) ids) 0
                 + strength union p
                 <= fold_left (fun s y => s + strength union y) (filter (fun y => dominates (obj y) (obj q)) ids) 0); [|lia].
    apply G.
    - apply NoDup_filter, ids_NoDup.
    - intros y Hy. apply filter_In in Hy. destruct Hy as (Hy & Hd). apply filter_In. split; [exact Hy|].
      apply ids_In in Hy. apply dom_obj in Hd; auto. apply dom_obj; auto. eapply pareto_dom_trans; eauto.
    - apply filter_In. split; [now apply ids_In | now apply dom_obj].
    - intros Hy. apply filter_In in Hy. destruct Hy as (_ & Hy). now rewrite dominates_irrefl in Hy.
  Qed.

  Lemma fit_monotone fits : calculate_fitnesses union = Some fits -> 2 <= n ->
    forall p q, p < n -> q < n -> pareto_dom (obj p) (obj q) -> (nth p fits 0 < nth q fits 0)%R.
  Proof.
    intros E H p q Hp Hq Hd. destruct (fitnesses_some H) as (fits' & E' & HL & HF).
    assert (fits' = fits) by congruence. subst fits'.
    destruct (HF p Hp) as (r & Er & ->), (HF q Hq) as (r' & Er' & ->).
    apply density_range in Er. apply density_range in Er'.
    pose proof (raw_monotone p q Hp Hq Hd) as G. apply le_INR in G. rewrite plus_INR in G. cbn [INR] in G. lra.
  Qed.

  (** ---- truncation ---- *)
  Lemma apart_euclid i j : i < n -> j < n ->
    apart m_objectives union i j (euclid_sqr_distance (obj i) (obj j)).
  Proof.
    intros Hi Hj. destruct (at_pos i Hi) as (x & Ex & Ox), (at_pos j Hj) as (y & Ey & Oy).
    exists x, y. repeat split; auto. rewrite <- Ox, <- Oy. apply euclid_sq_dist. now rewrite !obj_dim.
  Qed.

  Lemma ties_incl lv first l : incl (ties lv first l) l.
  Proof.
    induction l as [|a l IH]; cbn; [intros x []|].
    destruct (entry lv a =? entry lv first)%Z; [|intros x []].
    intros x [<-|Hx]; [now left | right; now apply IH].
  Qed.
  Lemma ties_all lv first l : (forall a, In a l -> entry lv a = entry lv first) -> ties lv first l = l.
  Proof.
    induction l as [|a l IH]; intros H; [reflexivity|]. cbn.
    rewrite (H a) by now left. rewrite Z.eqb_refl. f_equal. apply IH. intros b Hb. apply H. now right.
  Qed.
  Lemma ties_length lv first l : length (ties lv first l) <= length l.
  Proof. induction l as [|a l IH]; cbn; [lia|]. destruct (entry lv a =? entry lv first)%Z; cbn; lia. Qed.

  Notation elt := (nat * list Z)%type.

  Lemma entry_sorted lv (l : list elt) :
    StronglySorted (fun a b => (entry lv a <=? entry lv b)%Z = true)
                   (stable_sort (fun a b => (entry lv a <=? entry lv b)%Z) l).
  Proof.
    apply (stable_sort_sorted _ (fun _ => True)).
    - intros a b _ _ H. apply Z.leb_gt in H. apply Z.leb_le. lia.
    - intros a b c _ _ _ H H'. apply Z.leb_le in H, H'. apply Z.leb_le. lia.
    - apply Forall_forall. auto.
  Qed.

  Lemma get_min_spec fuel : forall (l : list elt) lv,
    l <> [] -> (forall a, In a l -> length l <= length (snd a)) -> length l <= fuel + lv ->
    exists a, get_min fuel l lv = Some a /\ In a l /\
      (lv < length l -> forall b, In b l -> (entry lv a <= entry lv b)%Z).
  Proof.
    induction fuel as [|fuel IH]; intros l lv Hne Hrow Hf.
    - cbn [get_min]. assert (E : (length l <=? lv) = true) by (apply Nat.leb_le; lia). rewrite E.
      destruct l as [|a l]; [congruence|]. exists a. cbn [hd_error]. split; [reflexivity|]. split; [now left|]. apply Nat.leb_le in E. lia.
    - cbn [get_min]. destruct (length l <=? lv) eqn:E.
      + destruct l as [|a l]; [congruence|]. exists a. cbn [hd_error]. split; [reflexivity|]. split; [now left|]. apply Nat.leb_le in E. lia.
      + apply Nat.leb_gt in E.
        destruct (existsb (fun a : nat * list Z => length (snd a) <=? lv) l) eqn:E1.
        { apply existsb_exists in E1. destruct E1 as (a & Ha & E1). apply Nat.leb_le in E1. specialize (Hrow a Ha). lia. }
        pose proof (entry_sorted lv l) as SS.
        pose proof (stable_sort_perm (fun a b : elt => (entry lv a <=? entry lv b)%Z) l) as PP.

        destruct (stable_sort (fun a b : nat * list Z => (entry lv a <=? entry lv b)%Z) l) as [|first rest] eqn:E2.
        { apply Permutation_nil in PP. congruence. }
        assert (HL : length l = S (length rest)) by (rewrite <- (Permutation_length PP); reflexivity).
        inversion SS as [|? ? SS' HF]; subst.
        assert (Hmin : forall b, In b l -> (entry lv first <= entry lv b)%Z).
        { intros b Hb. apply (Permutation_in _ (Permutation_sym PP)) in Hb. destruct Hb as [<-|Hb]; [lia|].
          rewrite Forall_forall in HF. apply HF in Hb. now apply Z.leb_le in Hb. }
        assert (Hfi : In first l) by (apply (Permutation_in _ PP); now left).
        destruct (ties lv first rest) as [|t ts] eqn:ET.
        * exists first. split; [reflexivity|]. split; [exact Hfi|]. intros _. exact Hmin.
        * assert (HI : incl (first :: t :: ts) l).
          { rewrite <- ET. intros x [<-|Hx]; [exact Hfi|]. apply (Permutation_in _ PP). right. now apply ties_incl in Hx. }
          assert (HLT : length (first :: t :: ts) <= length l).
          { rewrite <- ET. cbn [length]. pose proof (ties_length lv first rest). lia. }
          destruct (IH (first :: t :: ts) (S lv)) as (a & Ea & Ia & Ma).
          { discriminate. } { intros a Ha. specialize (Hrow a (HI a Ha)). lia. } { lia. }
          exists a. split; [exact Ea|]. split; [now apply HI|]. intros _ b Hb.
          assert (Et : forall x, In x (first :: t :: ts) -> entry lv x = entry lv first).
          { rewrite <- ET. intros x [<-|Hx]; [reflexivity|]. clear - Hx.
            induction rest as [|y rest IHr]; cbn in Hx; [destruct Hx|].
            destruct (entry lv y =? entry lv first)%Z eqn:Ey; [|destruct Hx].
            destruct Hx as [<-|Hx]; [now apply Z.eqb_eq in Ey | auto]. }
          rewrite (Et a Ia). now apply Hmin.
  Qed.

  Lemma row_length pop p : length (row union pop p) = length pop.
  Proof. unfold row. now rewrite stable_sort_length, map_length. Qed.

  Lemma Zsort_sorted (l : list Z) : StronglySorted (fun a b => (a <=? b)%Z = true) (stable_sort Z.leb l).
  Proof.
    apply (stable_sort_sorted _ (fun _ => True)).
    - intros a b _ _ H. apply Z.leb_gt in H. apply Z.leb_le. lia.
    - intros a b c _ _ _ H H'. apply Z.leb_le in H, H'. apply Z.leb_le. lia.
    - apply Forall_forall. auto.
  Qed.

  (** Sorting brings the least element to the front. *)
  Lemma Zsort_min (l : list Z) z l' : Permutation l (z :: l') -> (forall y, In y l' -> (z <= y)%Z) ->
    exists r, stable_sort Z.leb l = z :: r /\ Permutation r l'.
  Proof.
    intros P Hm. pose proof (Zsort_sorted l) as SS. pose proof (Permutation_trans (stable_sort_perm Z.leb l) P) as PP.
    destruct (stable_sort Z.leb l) as [|y r]; [apply Permutation_nil in PP; discriminate|].
    inversion SS as [|? ? _ HF]; subst.
    assert (y = z).
    { apply Z.le_antisymm.
      - assert (In z (y :: r)) by (apply (Permutation_in _ (Permutation_sym PP)); now left).
        destruct H as [->|H]; [lia|]. rewrite Forall_forall in HF. apply HF in H. now apply Z.leb_le in H.
      - assert (In y (z :: l')) by (apply (Permutation_in _ PP); now left).
        destruct H as [<-|H]; [lia|]. now apply Hm. }
    subst y. exists r. split; [reflexivity|]. now apply Permutation_cons_inv in PP.
  Qed.

  Lemma euclid_self p : euclid_sqr_distance (obj p) (obj p) = 0%Z.
  Proof. apply (sq_dist_zero (obj p) (obj p)); [now apply euclid_sq_dist | reflexivity]. Qed.
  Lemma euclid_nonneg i j : i < n -> j < n -> (0 <= euclid_sqr_distance (obj i) (obj j))%Z.
  Proof. intros Hi Hj. eapply sq_dist_nonneg, euclid_sq_dist. now rewrite !obj_dim. Qed.

  Lemma row_entries (pop : list nat) p : (forall q, In q pop -> q < n) -> NoDup pop -> In p pop -> 2 <= length pop ->
    nth 0 (row union pop p) 0%Z = 0%Z /\
    (exists q, In q pop /\ q <> p /\ nth 1 (row union pop p) 0%Z = euclid_sqr_distance (obj p) (obj q)) /\
    (forall q, In q pop -> q <> p -> (nth 1 (row union pop p) 0 <= euclid_sqr_distance (obj p) (obj q))%Z).
  Proof.
    intros Hin ND Hp H2. unfold row.
    destruct (in_split _ _ Hp) as (l1 & l2 & E).
    set (others := map (fun q => euclid_sqr_distance (obj p) (obj q)) (l1 ++ l2)).
    assert (P : Permutation (map (fun p2 => euclid_sqr_distance (obj p) (obj p2)) pop) (0%Z :: others)).
    { rewrite E, map_app. cbn [map]. rewrite euclid_self. rewrite <- Permutation_middle. unfold others. now rewrite map_app. }
    destruct (Zsort_min _ _ _ P) as (r & Er & Pr).
    { intros y Hy. apply in_map_iff in Hy. destruct Hy as (q & <- & Hq). apply euclid_nonneg; [now apply Hin|].
      apply Hin. rewrite E. apply in_app_or in Hq. apply in_or_app. cbn. tauto. }
    assert (ND' : ~ In p (l1 ++ l2)) by (rewrite E in ND; now apply NoDup_remove_2 in ND).
    assert (Hsub : forall q, In q (l1 ++ l2) <-> In q pop /\ q <> p).
    { intros q. rewrite E. split.
      - intros Hq. split; [apply in_app_or in Hq; apply in_or_app; cbn; tauto | intros ->; contradiction].
      - intros (Hq & Hne). apply in_app_or in Hq. apply in_or_app. destruct Hq as [Hq|[Hq|Hq]]; auto; congruence. }
    rewrite Er. cbn [nth]. split; [reflexivity|].
    pose proof (Zsort_sorted (map (fun p2 => euclid_sqr_distance (obj p) (obj p2)) pop)) as SS. rewrite Er in SS.
    inversion SS as [|? ? SS' _]; subst. destruct r as [|y r].
    - exfalso. apply Permutation_nil in Pr. unfold others in Pr. apply map_eq_nil in Pr.
      rewrite app_length in H2. cbn in H2. assert (length (l1 ++ l2) = 0) by now rewrite Pr. rewrite app_length in H. lia.
    - cbn [nth]. split.
      + assert (In y others) by (apply (Permutation_in _ Pr); now left). apply in_map_iff in H. destruct H as (q & <- & Hq).
        apply Hsub in Hq. exists q. tauto.
      + intros q Hq Hne. assert (Hi : In (euclid_sqr_distance (obj p) (obj q)) others) by (apply in_map_iff; exists q; split; [reflexivity | apply Hsub; auto]).
        apply (Permutation_in _ (Permutation_sym Pr)) in Hi. inversion SS' as [|? ? _ HF]; subst.
        destruct Hi as [->|Hi]; [lia|]. rewrite Forall_forall in HF. apply HF in Hi. now apply Z.leb_le in Hi.
  Qed.

  Lemma choose_in pop : pop <> [] -> exists t, choose_to_truncate union pop = Some t /\ In t pop.
  Proof.
    intros Hne. unfold choose_to_truncate.
    destruct (get_min_spec (S (length pop)) (map (fun p => (p, row union pop p)) pop) 0) as (a & Ea & Ia & _).
    - destruct pop; [congruence | discriminate].
    - intros a Ha. apply in_map_iff in Ha. destruct Ha as (p & <- & _). cbn [snd]. now rewrite row_length, map_length.
    - rewrite map_length. lia.
    - rewrite Ea. exists (fst a). split; [reflexivity|]. apply in_map_iff in Ia. destruct Ia as (p & <- & Hp). exact Hp.
  Qed.

  Lemma choose_closest pop : (forall q, In q pop -> q < n) -> NoDup pop -> 2 <= length pop ->
    exists t q, choose_to_truncate union pop = Some t /\ In t pop /\ In q pop /\ q <> t /\
      forall a b, In a pop -> In b pop -> a <> b ->
        (euclid_sqr_distance (obj t) (obj q) <= euclid_sqr_distance (obj a) (obj b))%Z.
  Proof.
    intros Hin ND H2. unfold choose_to_truncate.
    set (rows := map (fun p => (p, row union pop p)) pop).
    assert (HLr : length rows = length pop) by apply map_length.
    assert (H0 : forall a, In a rows -> entry 0 a = 0%Z).
    { intros a Ha. apply in_map_iff in Ha. destruct Ha as (p & <- & Hp). unfold entry. cbn [snd]. now apply row_entries. }
    assert (HR : forall a, In a rows -> length (snd a) = length pop).
    { intros a Ha. apply in_map_iff in Ha. destruct Ha as (p & <- & Hp). cbn [snd]. apply row_length. }
    cbn [get_min]. rewrite HLr.
    assert (EL : (length pop <=? 0) = false) by (apply Nat.leb_gt; lia). rewrite EL.
    destruct (existsb (fun d0 : nat * list Z => length (snd d0) <=? 0) rows) eqn:EX.
    { apply existsb_exists in EX. destruct EX as (a & Ha & EX). rewrite (HR a Ha), EL in EX. discriminate. }
    pose proof (stable_sort_perm (fun a b : elt => (entry 0 a <=? entry 0 b)%Z) rows) as PP.
    destruct (stable_sort (fun a b : nat * list Z => (entry 0 a <=? entry 0 b)%Z) rows) as [|first rest].
    { apply Permutation_nil in PP. rewrite PP in HLr. cbn in HLr. lia. }
    pose proof (Permutation_length PP) as PL. cbn [length] in PL.
    assert (HI : forall a, In a (first :: rest) -> In a rows) by (intros a Ha; now apply (Permutation_in _ PP)).
    rewrite ties_all by (intros a Ha; rewrite (H0 a), (H0 first); auto; apply HI; [now left | now right]).
    destruct rest as [|b rest]; [cbn in PL; lia|].
    destruct (get_min_spec (length pop) (first :: b :: rest) 1) as (a & Ea & Ia & Ma).
    { discriminate. } { intros a Ha. rewrite (HR a) by now apply HI. cbn [length] in *. lia. } { cbn [length] in *. lia. }
    rewrite Ea. specialize (Ma ltac:(cbn [length]; lia)).
    pose proof (HI a Ia) as Ra. apply in_map_iff in Ra. destruct Ra as (t & Et & Ht).
    destruct (row_entries pop t Hin ND Ht H2) as (_ & (q & Hq & Hqt & Eq) & _).
    exists t, q. subst a. cbn [fst]. repeat split; auto. intros x y Hx Hy Hxy.
    destruct (row_entries pop x Hin ND Hx H2) as (_ & _ & Mx). specialize (Mx y Hy (not_eq_sym Hxy)).
    specialize (Ma (x, row union pop x)). unfold entry in Ma. cbn [snd] in Ma. rewrite Eq in Ma.
    assert (In (x, row union pop x) (first :: b :: rest)); [|specialize (Ma H); lia].
    apply (Permutation_in _ (Permutation_sym PP)). apply in_map_iff. exists x. auto.
  Qed.

  (** ---- selection ---- *)
  Variable fit : nat -> R.

  Lemma list_remove_spec x l : In x l -> exists y l1 l2,
    list_remove union fit x l = Some (l1 ++ l2) /\ l = l1 ++ y :: l2 /\ dict_eq union fit x y = true.
  Proof.
    induction l as [|y l IH]; intros H; [destruct H|]. cbn [list_remove].
    destruct (dict_eq union fit x y) eqn:E.
    - exists y, [], l. auto.
    - destruct H as [->|H]; [unfold dict_eq in E; rewrite Nat.eqb_refl in E; discriminate|].
      destruct (IH H) as (z & l1 & l2 & -> & -> & E'). exists z, (y :: l1), l2. auto.
  Qed.

  Lemma truncate_spec fuel size env : length env <= fuel -> size <= length env -> NoDup env ->
    exists e, truncate union fit fuel size env = Some e /\ length e = size /\ NoDup e /\ incl e env.
  Proof.
    revert env. induction fuel as [|fuel IH]; intros env Hf Hs ND; cbn [truncate].
    - assert (E : (length env <=? size) = true) by (apply Nat.leb_le; lia). rewrite E.
      exists env. apply Nat.leb_le in E. split; [reflexivity|]. split; [lia|]. split; [assumption | apply incl_refl].
    - destruct (length env <=? size) eqn:E.
      + exists env. apply Nat.leb_le in E. split; [reflexivity|]. split; [lia|]. split; [assumption | apply incl_refl].
      + apply Nat.leb_gt in E. destruct (choose_in env) as (t & Et & It).
        { intros ->. cbn in E. lia. }
        rewrite Et. destruct (list_remove_spec t env It) as (y & l1 & l2 & -> & EE & _).
        rewrite EE in *. rewrite app_length in *. cbn [length] in *.
        destruct (IH (l1 ++ l2)) as (e & E1 & E2 & E3 & E4).
        * rewrite app_length. lia.
        * rewrite app_length. lia.
        * now apply NoDup_remove_1 in ND.
        * exists e. repeat split; auto. intros x Hx. apply E4 in Hx. apply in_app_or in Hx. apply in_or_app. cbn. tauto.
  Qed.

  Notation good := (fun p => if Rle_dec (fit p) 1 then true else false).
  Notation sorted_union := (stable_sort (fun a b => Rleb (fit a) (fit b)) ids).

  Lemma sorted_union_sorted : StronglySorted (fun a b => Rleb (fit a) (fit b) = true) sorted_union.
  Proof.
    apply (stable_sort_sorted _ (fun _ => True)).
    - intros a b _ _. apply Rleb_total.
    - intros a b c _ _ _. apply Rleb_trans.
    - apply Forall_forall. auto.
  Qed.

  Lemma index_filter (l : list nat) : StronglySorted (fun a b => Rleb (fit a) (fit b) = true) l ->
    firstn (get_domination_index fit l) l = filter good l /\
    skipn (get_domination_index fit l) l = filter (fun p => negb (good p)) l.
  Proof.
    induction 1 as [|a l SS IH HF]; [now cbn|]. cbn [get_domination_index].
    destruct (Rle_dec (fit a) 1) as [G|G].
    - cbn [firstn skipn filter]. destruct IH as (IH1 & IH2). rewrite IH1, IH2.
      destruct (Rle_dec (fit a) 1); [|contradiction]. cbn. auto.
    - rewrite filter_none, filter_all; [auto| |].
      + intros x [<-|Hx]; [destruct (Rle_dec (fit a) 1); [contradiction | reflexivity]|].
        rewrite Forall_forall in HF. apply HF, Rleb_le in Hx. destruct (Rle_dec (fit x) 1); [lra | reflexivity].
      + intros x [<-|Hx]; [destruct (Rle_dec (fit a) 1); [contradiction | reflexivity]|].
        rewrite Forall_forall in HF. apply HF, Rleb_le in Hx. destruct (Rle_dec (fit x) 1); [lra | reflexivity].
  Qed.

  Lemma selection_spec size : size <= n ->
    exists e, environmental_selection union fit size = Some e /\ length e = size /\ NoDup e /\
      (forall p, In p e -> p < n) /\
      (length (filter good ids) <= size ->
         incl (filter good ids) e /\
         forall p q, In p e -> q < n -> ~ In q e -> (fit p <= fit q)%R) /\
      (size < length (filter good ids) -> incl e (filter good ids)).
  Proof.
    intros Hs. unfold environmental_selection.
    destruct (index_filter sorted_union sorted_union_sorted) as (E1 & E2).
    set (k := get_domination_index fit sorted_union) in *.
    assert (PU : Permutation sorted_union ids) by apply stable_sort_perm.
    assert (PG : Permutation (filter good sorted_union) (filter good ids)) by now apply filter_perm.
    assert (LG : length (filter good sorted_union) = length (filter good ids)) by now apply Permutation_length.
    assert (NDU : NoDup sorted_union) by (eapply Permutation_NoDup; [apply Permutation_sym, PU | apply ids_NoDup]).
    assert (LU : length sorted_union = n) by (rewrite stable_sort_length; apply ids_length).
    assert (IU : forall p, In p sorted_union -> p < n) by (intros p Hp; apply ids_In; now apply stable_sort_In in Hp).
    assert (IE : forall p m, In p (firstn m sorted_union) -> p < n).
    { intros p m Hp. apply IU. rewrite <- (firstn_skipn m). apply in_or_app. now left. }
    (* the result in the case where the good ones fit: a prefix of the sorted list *)
    assert (Pref : forall m, length (filter good ids) <= m -> m <= n ->
      incl (filter good ids) (firstn m sorted_union) /\
      (forall p q, In p (firstn m sorted_union) -> q < n -> ~ In q (firstn m sorted_union) -> (fit p <= fit q)%R)).
    { intros m Hm Hmn. split.
      - intros p Hp. apply (Permutation_in _ (Permutation_sym PG)) in Hp. rewrite <- E1 in Hp.
        assert (HK : length (firstn k sorted_union) = length (filter good ids)) by (rewrite E1; exact LG).
        assert (Hkm : firstn k sorted_union = firstn (length (filter good ids)) sorted_union).
        { rewrite <- HK. rewrite firstn_length. destruct (Nat.min_dec k (length sorted_union)) as [->| Emin]; [reflexivity|].
          rewrite Emin, firstn_all. apply firstn_all2. lia. }
        rewrite Hkm in Hp. rewrite <- (firstn_skipn (length (filter good ids)) (firstn m sorted_union)).
        apply in_or_app. left. rewrite firstn_firstn. now rewrite Nat.min_l.
      - intros p q Hp Hq Hnq. pose proof sorted_union_sorted as SS.
        rewrite <- (firstn_skipn m sorted_union) in SS.
        apply Rleb_le. apply (StronglySorted_app_inv (fun a b => Rleb (fit a) (fit b) = true) _ _ SS p q Hp).
        assert (Iq : In q sorted_union) by (apply stable_sort_In, ids_In; exact Hq).
        rewrite <- (firstn_skipn m sorted_union) in Iq. apply in_app_or in Iq. tauto. }
    destruct (length (firstn k sorted_union) <? size) eqn:C1.
    - apply Nat.ltb_lt in C1. rewrite E1 in C1. rewrite LG in C1.
      assert (EP : firstn k sorted_union ++ firstn (size - length (firstn k sorted_union)) (skipn k sorted_union)
                   = firstn size sorted_union).
      { assert (HKle : k <= length sorted_union \/ length sorted_union < k) by lia.
        destruct HKle as [HK|HK].
        - rewrite firstn_length, Nat.min_l by exact HK.
          assert (k <= size) by (apply (f_equal (@length nat)) in E1; rewrite firstn_length, Nat.min_l in E1 by exact HK; lia).
          rewrite <- (firstn_skipn k sorted_union) at 3. rewrite firstn_app.
          rewrite firstn_all2 with (n := size) (l := firstn k sorted_union) by (rewrite firstn_length; lia).
          f_equal. f_equal. rewrite firstn_length, Nat.min_l by exact HK. reflexivity.
        - exfalso. apply (f_equal (@length nat)) in E1. rewrite firstn_length, Nat.min_r in E1 by lia. lia. }
      rewrite EP. exists (firstn size sorted_union).
      split; [reflexivity|]. split; [rewrite firstn_length; lia|].
      split; [rewrite <- (firstn_skipn size sorted_union) in NDU; now apply NoDup_app_inv in NDU|].
      split; [intros p Hp; now apply IE in Hp|].
      split; [|lia]. intros _. apply Pref; lia.
    - apply Nat.ltb_ge in C1. destruct (size <? length (firstn k sorted_union)) eqn:C2.
      + apply Nat.ltb_lt in C2.
        destruct (truncate_spec (length (firstn k sorted_union)) size (firstn k sorted_union)) as (e & T1 & T2 & T3 & T4).
        { lia. } { lia. } { rewrite E1. now apply NoDup_filter. }
        exists e. rewrite E1, LG in C2. split; [exact T1|]. split; [exact T2|]. split; [exact T3|].
        split; [intros p Hp; apply T4 in Hp; now apply IE in Hp|].
        split; [lia|]. intros _ p Hp. apply T4 in Hp. rewrite E1 in Hp. now apply (Permutation_in _ PG).
      + apply Nat.ltb_ge in C2. assert (LE : length (firstn k sorted_union) = size) by lia.
        exists (firstn k sorted_union). split; [reflexivity|]. split; [exact LE|].
        split; [rewrite E1; now apply NoDup_filter|]. split; [intros p Hp; now apply IE in Hp|].
        assert (LG' : length (filter good ids) = size) by (rewrite <- LG, <- E1; exact LE).
        split; [|lia]. intros _.
        assert (EK : firstn k sorted_union = firstn size sorted_union).
        { rewrite <- LE. rewrite firstn_length. destruct (Nat.min_dec k (length sorted_union)) as [->| Emin]; [reflexivity|].
          rewrite Emin, firstn_all. apply firstn_all2. lia. }
        rewrite EK. apply Pref; lia.
  Qed.
End S.

(** ---- wrappers ---- *)
Lemma fitness_separates union d : 2 <= length union -> all_dim d m_objectives union ->
  exists fits, calculate_fitnesses union = Some fits /\ length fits = length union /\
    forall i r, nth_error fits i = Some r -> ((r <= 1)%R <-> nondominated_at m_objectives union i).
Proof.
  intros H D. destruct (fitnesses_some union H) as (fits & E & HL & _).
  exists fits. split; [exact E|]. split; [exact HL|]. intros i r Hi.
  assert (Hlt : i < length union) by (apply nth_error_Some' in Hi; lia).
  rewrite <- (fit_le_one union d D fits E H i Hlt). now rewrite (nth_error_nth _ _ _ Hi).
Qed.

Lemma fitness_respects_dominance union d : 2 <= length union -> all_dim d m_objectives union ->
  exists fits, calculate_fitnesses union = Some fits /\
    forall i j x y r s, nth_error union i = Some x -> nth_error union j = Some y ->
      nth_error fits i = Some r -> nth_error fits j = Some s ->
      pareto_dom (m_objectives x) (m_objectives y) -> (r < s)%R.
Proof.
  intros H D. destruct (fitnesses_some union H) as (fits & E & HL & _).
  exists fits. split; [exact E|]. intros i j x y r s Hx Hy Hr Hs Hd.
  pose proof (fit_monotone union d D fits E H i j) as G.
  rewrite (nth_error_nth _ _ _ Hr), (nth_error_nth _ _ _ Hs) in G. apply G.
  - now apply nth_error_Some' in Hx.
  - now apply nth_error_Some' in Hy.
  - rewrite (obj_at _ _ _ Hx), (obj_at _ _ _ Hy). exact Hd.
Qed.

Lemma select_archive_spec union d size : 2 <= length union -> size <= length union ->
  all_dim d m_objectives union ->
  exists e fit fits, select_archive union size = Some (e, fit) /\
    calculate_fitnesses union = Some fits /\
    (forall i, i < length union -> nth_error fits i = Some (fit i)) /\
    length e = size /\ NoDup e /\ (forall i, In i e -> i < length union) /\
    forall L, nondominated_positions m_objectives union L ->
      (length L <= size ->
         incl L e /\ forall i j, In i e -> j < length union -> ~ In j e -> (fit i <= fit j)%R) /\
      (size < length L -> incl e L).
Proof.
  intros H Hs D. unfold select_archive.
  destruct (fitnesses_some union H) as (fits & E & HL & _). rewrite E.
  destruct (selection_spec union (fun p => nth p fits 0%R) size Hs) as (e & E1 & E2 & E3 & E4 & E5 & E6).
  cbv zeta. rewrite E1. exists e, (fun p => nth p fits 0%R), fits. split; [reflexivity|]. split; [reflexivity|].
  split; [intros i Hi; apply nth_error_nth'; lia|].
  split; [exact E2|]. split; [exact E3|]. split; [exact E4|].
  intros L (NL & HLm).
  set (good := fun p => if Rle_dec (nth p fits 0%R) 1 then true else false) in *.
  assert (PL : Permutation L (filter good (ids union))).
  { apply NoDup_Permutation; [exact NL | apply NoDup_filter, ids_NoDup|]. intros i. rewrite HLm, filter_In, ids_In. unfold good.
    split.
    - intros Hi. assert (Hlt : i < length union) by (destruct Hi as (x & Hx & _); now apply nth_error_Some' in Hx).
      split; [exact Hlt|]. apply (fit_le_one union d D fits E H i Hlt) in Hi.
      destruct (Rle_dec (nth i fits 0%R) 1); [reflexivity | contradiction].
    - intros (Hlt & Hg). apply (fit_le_one union d D fits E H i Hlt).
      destruct (Rle_dec (nth i fits 0%R) 1); [assumption | discriminate]. }
  rewrite (Permutation_length PL). split.
  - intros Hle. destruct (E5 Hle) as (I1 & I2). split; [|exact I2].
    intros i Hi. apply I1. now apply (Permutation_in _ PL).
  - intros Hlt i Hi. apply (Permutation_in _ (Permutation_sym PL)). now apply (E6 Hlt).
Qed.

Lemma truncation_closest union d pop : all_dim d m_objectives union ->
  (forall q, In q pop -> q < length union) -> NoDup pop -> 2 <= length pop ->
  exists t q s, choose_to_truncate union pop = Some t /\ In t pop /\ In q pop /\ q <> t /\
    apart m_objectives union t q s /\
    forall a b s', In a pop -> In b pop -> a <> b -> apart m_objectives union a b s' -> (s <= s')%Z.
Proof.
  intros D Hin ND H2. destruct (choose_closest union d D pop Hin ND H2) as (t & q & Et & It & Iq & Hne & Hm).
  exists t, q, (euclid_sqr_distance (obj union t) (obj union q)). repeat split; auto.
  - apply (apart_euclid union d D); auto.
  - intros a b s' Ha Hb Hab Hs. specialize (Hm a b Ha Hb Hab).
    replace s' with (euclid_sqr_distance (obj union a) (obj union b)); [exact Hm|].
    destruct (apart_euclid union d D a b (Hin a Ha) (Hin b Hb)) as (x & y & Ex & Ey & S1).
    destruct Hs as (x' & y' & Ex' & Ey' & S2). replace x' with x in S2 by congruence. replace y' with y in S2 by congruence.
    now apply (sq_dist_fun _ _ _ _ S1).
Qed.

(** ---- evaluation cost ---- *)
Definition hit (fa : option (list (vec * vec))) (v : vec) : bool :=
  match fa with Some m => match lookup v m with Some _ => true | None => false end | None => false end.

Lemma spea_evaluate_step f fa N acc v :
  spea_evaluate f fa N acc v =
  (fst acc ++ [mk_member v (match fa with Some m => match lookup v m with Some o => o | None => f v end | None => f v end)],
   (if hit fa v then 0 else N, snd (snd acc) ++ if hit fa v then [] else [v])).
Proof.
  destruct acc as [done [c tr]]. unfold spea_evaluate, hit. cbn [fst snd].
  destruct fa as [m|]; [destruct (lookup v m)|]; rewrite ?app_nil_r; reflexivity.
Qed.

Lemma spea_objectives_spec f fa pop tr :
  spea_objectives f fa pop tr =
  (map (fun v => mk_member v (match fa with Some m => match lookup v m with Some o => o | None => f v end | None => f v end)) pop,
   (match rev pop with [] => 0 | v :: _ => if hit fa v then 0 else length pop end,
    tr ++ filter (fun v => negb (hit fa v)) pop)).
Proof.
  unfold spea_objectives. generalize (length pop) as N. intros N.
  induction pop as [|v pop IH] using rev_ind; [cbn; now rewrite app_nil_r|].
  rewrite fold_left_app, IH. cbn [fold_left]. rewrite spea_evaluate_step. cbn [fst snd].
  rewrite map_app, filter_app, rev_app_distr. cbn [rev app map filter].
  destruct (hit fa v); cbn [negb]; rewrite ?app_nil_r, ?app_assoc; reflexivity.
Qed.

(** ---- the run ---- *)
Section Run.
  Variable P : params.
  Hypothesis box_ok : valid_box (p_dims P).
  Hypothesis trim_ok : forall v, in_box (p_dims P) v -> in_box (p_dims P) (p_trim P v).
  Hypothesis f_dim : forall v, length (p_f P v) = p_m P.
  Hypothesis eps_ok : (0 <= p_epsilon P)%Z.
  Variable fa : option (list (vec * vec)).
  Hypothesis fa_ok : forall m k o, fa = Some m -> lookup k m = Some o -> o = p_f P k.
  Variable N : nat.
  Hypothesis N2 : 2 <= N.

  Notation good_draws := (SpeaSpec.good_draws N).

  Definition good_member (m : member) : Prop :=
    in_box (p_dims P) (m_value m) /\ m_objectives m = p_f P (m_value m).

  Lemma tournament_ok fit pool draw : length pool = N -> fst draw < N -> snd draw < N -> fst draw <> snd draw ->
    exists a, tournament fit pool draw = Some a /\ In a pool.
  Proof.
    intros HL H1 H2 Hne. destruct draw as [i j]. cbn in *. unfold tournament.
    destruct (i =? j) eqn:E; [apply Nat.eqb_eq in E; contradiction|].
    destruct (nth_error pool i) as [a|] eqn:Ea; [|apply nth_error_None in Ea; lia].
    destruct (nth_error pool j) as [b|] eqn:Eb; [|apply nth_error_None in Eb; lia].
    exists (if Rleb (fit a) (fit b) then a else b). split; [reflexivity|].
    destruct (Rleb (fit a) (fit b)); eapply nth_error_In; eauto.
  Qed.

  Lemma child_ok D union fit pool i : good_draws D -> i < N -> length pool = N ->
    (forall p, In p pool -> p < length union) -> Forall good_member union ->
    exists c, spea_child P D union fit pool i = Some c /\ in_box (p_dims P) c.
  Proof.
    intros HD Hi HL Hin HG. destruct (HD i Hi) as (A1 & A2 & A3 & B1 & B2 & B3). unfold spea_child.
    destruct (tournament_ok fit pool (t1 D i) HL A1 A2 A3) as (a & -> & Ia).
    destruct (tournament_ok fit pool (t2 D i) HL B1 B2 B3) as (b & -> & Ib).
    assert (HV : forall p, In p pool -> in_box (p_dims P) (value union p)).
    { intros p Hp. unfold value. rewrite Forall_forall in HG. apply HG, nth_In. auto. }
    pose proof (HV a Ia) as Va. pose proof (HV b Ib) as Vb.
    destruct (crossover_genes (p_raw_a P) (p_raw_b P) (s_skip D i) (s_rand D i) (s_swap D i) (p_half P) (p_epsilon P)
                (s_r0 D i) (p_crossover_rate P) (s_pick D i) (value union a) (value union b) (p_dims P) eps_ok box_ok)
      as (x & -> & _ & _ & _ & Bx).
    { now apply in_box_length in Va. } { now apply in_box_length in Vb. }
    destruct (mutate_in_box (p_raw P) (s_sel D i) (s_rnd D i) (p_mutation_rate P) x (p_dims P) box_ok (Bx Va Vb)) as (y & -> & By).
    exists (p_trim P y). split; [reflexivity|]. auto.
  Qed.

  (** [k] steps have been made. *)
  Definition spea_inv (k : nat) (s : spea_state) : Prop :=
    length (spea_population s) = N /\ Forall (in_box (p_dims P)) (spea_population s) /\
    length (spea_archive s) = (if k =? 0 then 0 else N) /\ Forall good_member (spea_archive s) /\
    (fa = None -> spea_cost s = N * k /\ length (spea_evals s) = N * k).

  Lemma good_dim l : Forall good_member l -> all_dim (p_m P) m_objectives l.
  Proof. intros H m Hm. rewrite Forall_forall in H. destruct (H m Hm) as (_ & ->). apply f_dim. Qed.

  Lemma step_ok k D s : good_draws D -> spea_inv k s ->
    exists s', spea_step P fa N D s = Some s' /\ spea_inv (S k) s'.
  Proof.
    intros HD (I1 & I2 & I3 & I4 & I5). unfold spea_step. rewrite spea_objectives_spec.
    set (pop := map _ (spea_population s)).
    assert (Gp : Forall good_member pop).
    { apply Forall_forall. intros m Hm. apply in_map_iff in Hm. destruct Hm as (v & <- & Hv).
      rewrite Forall_forall in I2. split; cbn [m_value m_objectives]; [now apply I2|].
      destruct fa as [m|] eqn:Efa; [|reflexivity]. destruct (lookup v m) as [o|] eqn:El; [|reflexivity].
      now apply (fa_ok m v o eq_refl). }
    assert (GU : Forall good_member (spea_archive s ++ pop)) by (apply Forall_app; split; assumption).
    assert (LU : length (spea_archive s ++ pop) = length (spea_archive s) + N) by (unfold pop; now rewrite app_length, map_length, I1).
    destruct (select_archive_spec (spea_archive s ++ pop) (p_m P) N) as (e & fit & fits & -> & _ & _ & Le & _ & Ie & _).
    { lia. } { lia. } { now apply good_dim. }
    destruct (collect_map (spea_child P D (spea_archive s ++ pop) fit e) (fun _ c => in_box (p_dims P) c)
                (seq 0 (length (spea_population s)))) as (children & -> & HC).
    { intros i Hi. apply in_seq in Hi. apply child_ok; auto. lia. }
    eexists. split; [reflexivity|]. unfold spea_inv. cbn [spea_population spea_archive spea_cost spea_evals].
    pose proof (Forall2_length' _ _ _ HC) as LC. rewrite seq_length in LC.
    split; [congruence|]. split.
    { apply Forall_forall. intros c Hc. destruct (Forall2_In_r _ _ _ _ HC Hc) as (i & _ & Hi). exact Hi. }
    split; [rewrite map_length; exact Le|]. split.
    { apply Forall_forall. intros m Hm. apply in_map_iff in Hm. destruct Hm as (p & <- & Hp).
      rewrite Forall_forall in GU. apply GU, nth_In. auto. }
    intros Hfa. destruct (I5 Hfa) as (C1 & C2). rewrite Hfa. cbn [hit negb].
    rewrite filter_all by auto. rewrite app_length, C2, I1, C1.
    destruct (rev (spea_population s)) as [|v r] eqn:Er.
    - apply (f_equal (@length vec)) in Er. rewrite rev_length, I1 in Er. cbn in Er. lia.
    - split; lia.
  Qed.

  Lemma steps_ok Ds : forall k s, Forall good_draws Ds -> spea_inv k s ->
    exists s', spea_steps P fa N Ds s = Some s' /\ spea_inv (k + length Ds) s'.
  Proof.
    induction Ds as [|D Ds IH]; intros k s HD HI; cbn [spea_steps length].
    - exists s. rewrite Nat.add_0_r. auto.
    - inversion HD; subst. destruct (step_ok k D s) as (s' & -> & HI'); auto.
      destruct (IH (S k) s') as (s'' & -> & HI''); auto. exists s''. rewrite Nat.add_succ_r. auto.
  Qed.
End Run.

Lemma spea_run_ok P fa population Ds :
  valid_box (p_dims P) -> (forall v, in_box (p_dims P) v -> in_box (p_dims P) (p_trim P v)) ->
  (forall v, length (p_f P v) = p_m P) -> (0 <= p_epsilon P)%Z ->
  (forall m k o, fa = Some m -> lookup k m = Some o -> o = p_f P k) ->
  2 <= length population -> Forall (in_box (p_dims P)) population ->
  Forall (good_draws (length population)) Ds ->
  exists s, spea_run P fa population Ds = Some s /\
    length (spea_population s) = length population /\ Forall (in_box (p_dims P)) (spea_population s) /\
    length (spea_finalized s) = (if length Ds =? 0 then 0 else length population) /\
    Forall (fun m => in_box (p_dims P) (m_value m) /\ m_objectives m = p_f P (m_value m)) (spea_archive s) /\
    (fa = None -> spea_cost s = length population * length Ds /\ length (spea_evals s) = length population * length Ds).
Proof.
  intros A B C D E F G H. unfold spea_run.
  destruct (steps_ok P A B C D fa E (length population) F Ds 0 (spea_init P population) H) as (s & Es & I1 & I2 & I3 & I4 & I5).
  { unfold spea_inv, spea_init. cbn. rewrite map_length. split; [reflexivity|]. split.
    { apply Forall_forall. intros v Hv. apply in_map_iff in Hv. destruct Hv as (w & <- & Hw). rewrite Forall_forall in G. auto. }
    split; [reflexivity|]. split; [constructor|]. intros _. lia. }
  exists s. split; [exact Es|]. unfold spea_finalized. rewrite map_length. cbn [Nat.add] in *. repeat split; auto; now apply I5.
Qed.

(** The cost charged by one round and the number of evaluations in it. *)
Lemma hit_known fa v : hit fa v = true <-> exists m o, fa = Some m /\ lookup v m = Some o.
Proof.
  unfold hit. destruct fa as [m|].
  - destruct (lookup v m) as [o|] eqn:E; split; try discriminate; eauto.
    intros (m' & o & [= <-] & E'). congruence.
  - split; [discriminate|]. intros (m & o & H & _). discriminate.
Qed.

Lemma spea_round (f : vec -> vec) (fa : option (list (vec * vec))) (pop trace : list vec) :
  let known v := exists m o, fa = Some m /\ lookup v m = Some o in
  exists evaluated charge,
    snd (spea_objectives f fa pop trace) = (charge, trace ++ evaluated) /\
    (forall v, In v evaluated <-> In v pop /\ ~ known v) /\
    (fa = None -> evaluated = pop) /\
    ((forall v, In v pop -> ~ known v) -> charge = length evaluated /\ evaluated = pop) /\
    (forall p v, pop = p ++ [v] -> known v -> charge = 0) /\
    (forall p v, pop = p ++ [v] -> ~ known v -> charge = length pop).
Proof.
  intros known. rewrite spea_objectives_spec. cbn [snd]. eexists. eexists. split; [reflexivity|].
  assert (K : forall v, negb (hit fa v) = true <-> ~ known v).
  { intros v. unfold known. rewrite <- hit_known. destruct (hit fa v); cbn; intuition discriminate. }
  split; [intros v; rewrite filter_In, K; reflexivity|].
  split; [intros ->; apply filter_all; reflexivity|].
  split.
  { intros H. rewrite filter_all by (intros v Hv; apply K, H, Hv). split; [|reflexivity].
    destruct (rev pop) as [|v r] eqn:E.
    - apply (f_equal (@rev vec)) in E. rewrite rev_involutive in E. rewrite E. reflexivity.
    - assert (Hv : In v pop) by (apply in_rev; rewrite E; now left). apply H, K in Hv.
      destruct (hit fa v); [discriminate | reflexivity]. }
  split; intros p v -> Hk; rewrite rev_app_distr; cbn [rev app].
  - apply hit_known in Hk. now rewrite Hk.
  - apply K in Hk. destruct (hit fa v); [discriminate | reflexivity].
Qed.

Lemma spea_step_selects (P : params) (fa : option (list (vec * vec))) (size : nat) (D : spea_draws) (s s' : spea_state) :
  (forall v, length (p_f P v) = p_m P) ->
  (forall m k o, fa = Some m -> lookup k m = Some o -> o = p_f P k) ->
  all_dim (p_m P) m_objectives (spea_archive s) ->
  2 <= length (spea_archive s) + length (spea_population s) ->
  size <= length (spea_archive s) + length (spea_population s) ->
  spea_step P fa size D s = Some s' ->
  exists union e,
    union = spea_archive s ++ map (fun v => mk_member v (p_f P v)) (spea_population s) /\
    map Some (spea_archive s') = map (nth_error union) e /\ length e = size /\ NoDup e /\
    forall L, nondominated_positions m_objectives union L ->
      (length L <= size -> incl L e) /\ (size < length L -> incl e L).
Proof.
  intros Hf Hfa Hd H2 Hs. unfold spea_step. rewrite spea_objectives_spec.
  replace (map _ (spea_population s)) with (map (fun v => mk_member v (p_f P v)) (spea_population s)).
  2:{ apply map_ext. intros v. f_equal. destruct fa as [m|] eqn:E; [|reflexivity].
      destruct (lookup v m) as [o|] eqn:El; [|reflexivity]. symmetry. eapply Hfa; eauto. }
  set (union := spea_archive s ++ _).
  assert (LU : length union = length (spea_archive s) + length (spea_population s)) by (unfold union; now rewrite app_length, map_length).
  assert (DU : all_dim (p_m P) m_objectives union).
  { intros m Hm. apply in_app_or in Hm. destruct Hm as [Hm|Hm]; [now apply Hd|].
    apply in_map_iff in Hm. destruct Hm as (v & <- & _). apply Hf. }
  destruct (select_archive_spec union (p_m P) size) as (e & fit & fits & -> & _ & _ & Le & ND & Ie & HL); [lia | lia | exact DU|].
  destruct (collect _) as [ch|]; [|discriminate]. intros [= <-]. cbn [spea_archive].
  exists union, e. split; [reflexivity|]. split.
  { rewrite map_map. apply map_ext_in. intros p Hp. symmetry. apply nth_error_nth'. auto. }
  split; [exact Le|]. split; [exact ND|]. intros L HL'. destruct (HL L HL') as (A & B). split; [|exact B].
  intros H. apply (A H).
Qed.
