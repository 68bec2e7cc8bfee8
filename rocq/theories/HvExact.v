(** From the recursion to HyperVolume.compute: building the lists, counting cells, shifting. *)
From Verif Require Import Spec Base SortModel SortProofs HvSpec HvModel HvMeasure HvLinks HvProofs.
Local Open Scope nat_scope.

(** ** The multi-list *)

Lemma append_linked h i A x : ~ In x A -> x <> 0 -> ~ In 0 A -> NoDup A ->
  linked (nx h i) (pv h i) A -> linked (nx (append h i x) i) (pv (append h i x) i) (A ++ [x]).
Proof.
  intros Hx Hx0 H0 Hnd H. pose proof (seg_last _ _ _ _ _ H) as Hl.
  assert (En : forall y, nx (append h i x) i y = if y =? last A 0 then x else if y =? x then 0 else nx h i y).
  { intros y. unfold append. cbn [set_nx set_pv nx pv]. rewrite !fupd2_at, Nat.eqb_refl. cbn [andb]. rewrite Hl. reflexivity. }
  assert (Ep : forall y, pv (append h i x) i y = if y =? 0 then x else if y =? x then last A 0 else pv h i y).
  { intros y. unfold append. cbn [set_nx set_pv nx pv]. rewrite !fupd2_at, Nat.eqb_refl. cbn [andb]. rewrite Hl. reflexivity. }
  unfold linked. apply seg_app. split.
  - destruct A as [|y A _] using rev_ind.
    + cbn [seg]. rewrite En, Ep. cbn [last]. rewrite !Nat.eqb_refl. destruct (Nat.eqb_spec x 0); [congruence | auto].
    + rewrite last_last in En, Ep. apply seg_app in H. destruct H as [H1 H2]. apply seg_app. split.
      * eapply seg_ext; [| |exact H1].
        -- intros z Hz. rewrite En. apply NoDup_app_inv in Hnd. destruct Hnd as (_ & _ & Hnd).
           destruct (Nat.eqb_spec z y) as [->|_].
           { exfalso. destruct Hz as [Hz|Hz]; [apply H0, in_or_app; right; left; congruence|].
             apply (Hnd y Hz). left. reflexivity. }
           destruct (Nat.eqb_spec z x) as [->|_]; [|reflexivity].
           exfalso. destruct Hz as [Hz|Hz]; [congruence|]. apply Hx, in_or_app. left. exact Hz.
        -- intros z Hz. rewrite Ep. destruct (Nat.eqb_spec z 0) as [->|_]; [contradiction|].
           destruct (Nat.eqb_spec z x) as [->|_]; [contradiction | reflexivity].
      * cbn [seg]. rewrite En, Ep. rewrite !Nat.eqb_refl. destruct (Nat.eqb_spec x 0); [congruence | auto].
  - cbn [seg]. rewrite En, Ep. destruct (Nat.eqb_spec x (last A 0)) as [He|_].
    + exfalso. pose proof (last_In A 0) as Hi. rewrite <- He in Hi. destruct Hi as [Hi|Hi]; [congruence | contradiction].
    + rewrite Nat.eqb_refl. auto.
Qed.

Definition same_data (h h' : heap) : Prop :=
  ign h' = ign h /\ area h' = area h /\ vol h' = vol h /\ bnd h' = bnd h.

Lemma append_frame h i x : same_data h (append h i x) /\
  forall j y, j <> i -> nx (append h i x) j y = nx h j y /\ pv (append h i x) j y = pv h j y.
Proof.
  split; [repeat split|]. intros j y Hj. unfold append. cbn [set_nx set_pv nx pv]. rewrite !fupd2_at.
  destruct (Nat.eqb_spec j i); [contradiction|]. auto.
Qed.

Lemma extend_ok i : forall l h A, NoDup (A ++ l) -> ~ In 0 (A ++ l) -> linked (nx h i) (pv h i) A ->
  linked (nx (extend h i l) i) (pv (extend h i l) i) (A ++ l) /\ same_data h (extend h i l) /\
  forall j y, j <> i -> nx (extend h i l) j y = nx h j y /\ pv (extend h i l) j y = pv h j y.
Proof.
  induction l as [|x l IH]; intros h A Hnd H0 Hl.
  - rewrite app_nil_r. split; [exact Hl|]. split; [repeat split | auto].
  - unfold extend. cbn [fold_left]. fold (extend (append h i x) i l).
    assert (HE : A ++ x :: l = (A ++ [x]) ++ l) by (rewrite <- app_assoc; reflexivity).
    destruct (IH (append h i x) (A ++ [x])) as (L1 & D1 & F1).
    + rewrite <- HE. exact Hnd.
    + rewrite <- HE. exact H0.
    + apply append_linked; [| | | |exact Hl].
      * apply NoDup_remove_2 in Hnd. intros H. apply Hnd, in_or_app. left. exact H.
      * intros ->. apply H0, in_or_app. right. left. reflexivity.
      * intros H. apply H0, in_or_app. left. exact H.
      * apply NoDup_app_inv in Hnd. apply Hnd.
    + rewrite HE. split; [exact L1|]. destruct (append_frame h i x) as [D2 F2]. split.
      * destruct D1 as (a1 & a2 & a3 & a4), D2 as (b1 & b2 & b3 & b4). repeat split; congruence.
      * intros j y Hj. destruct (F1 j y Hj), (F2 j y Hj). split; congruence.
Qed.

Lemma insert_ordered pts i (R : nat -> nat -> Prop) x l :
  let R' := fun a b => (coord pts i a < coord pts i b)%Z \/ (coord pts i a = coord pts i b /\ R a b) in
  StronglySorted R' l -> (forall y, In y l -> R x y) ->
  StronglySorted R' (insert_by (fun a b => (coord pts i a <=? coord pts i b)%Z) x l).
Proof.
  intros R'. induction 1 as [|a l Hs IH Hf]; intros HR; cbn [insert_by].
  - constructor; constructor.
  - destruct (Z.leb_spec (coord pts i x) (coord pts i a)) as [Hle|Hgt].
    + constructor; [constructor; assumption|]. rewrite Forall_forall in *. intros y Hy.
      specialize (HR y Hy). 
      assert (Hy' : (coord pts i a <= coord pts i y)%Z).
      { destruct Hy as [<-|Hy]; [lia|]. destruct (Hf y Hy) as [H|[H _]]; lia. }
      destruct (Z.eq_dec (coord pts i x) (coord pts i y)); [right; auto | left; lia].
    + constructor; [apply IH; intros y Hy; apply HR; right; exact Hy|].
      rewrite Forall_forall in *. intros y Hy. apply (Permutation_in _ (insert_by_perm _ _ _)) in Hy.
      destruct Hy as [<-|Hy]; [left; exact Hgt | apply Hf, Hy].
Qed.

(** Sorting by dimension [i] is stable. *)
Lemma sort_by_dimension_ok pts i nodes :
  StronglySorted (order pts i) nodes ->
  Permutation (sort_by_dimension pts i nodes) nodes /\ ordered pts i (sort_by_dimension pts i nodes).
Proof.
  intros Hs. split; [apply stable_sort_perm|]. unfold sort_by_dimension, ordered.
  induction Hs as [|a l Hs IH Hf]; [constructor|].
  change (stable_sort (fun x y => (coord pts i x <=? coord pts i y)%Z) (a :: l))
    with (insert_by (fun x y => (coord pts i x <=? coord pts i y)%Z) a (stable_sort (fun x y => (coord pts i x <=? coord pts i y)%Z) l)).
  apply (insert_ordered pts i (order pts i)); [exact IH|].
  intros y Hy. apply (Permutation_in _ (stable_sort_perm _ _)) in Hy. rewrite Forall_forall in Hf. apply Hf, Hy.
Qed.

Lemma seq_sorted n : forall m, StronglySorted lt (seq m n).
Proof.
  induction n as [|n IH]; intros m; cbn; constructor; [apply IH|].
  apply Forall_forall. intros y Hy. apply in_seq in Hy. lia.
Qed.

(** Nothing is cached yet, no flag is set. *)
Definition fresh (neg : Z) (h : heap) : Prop :=
  (forall y, ign h y = 0) /\ (forall i y, area h i y = 0%Z) /\ (forall i, bnd h i = neg).

Lemma pre_process_ok pts neg : forall dims, exists A,
  let '(nodes, h) := pre_process pts dims (empty_heap neg) in
  Permutation nodes (seq 1 (length pts)) /\ StronglySorted (order pts dims) nodes /\ fresh neg h /\
  (forall j, j < dims -> Permutation (A j) (seq 1 (length pts)) /\ ordered pts j (A j) /\
                         linked (nx h j) (pv h j) (A j)) /\
  (forall j y, dims <= j -> nx h j y = 0 /\ pv h j y = 0).
Proof.
  induction dims as [|d IH].
  - exists (fun _ => []). cbn. split; [reflexivity|]. split; [apply seq_sorted|]. split; [repeat split|]. split; [intros j Hj; lia|].
    intros j y _. auto.
  - destruct IH as (A & IH). cbn [pre_process]. destruct (pre_process pts d (empty_heap neg)) as [nodes h].
    destruct IH as (Hp & Hso & Hf & Hj & Hhi).
    destruct (sort_by_dimension_ok pts d nodes Hso) as [Hsp Hss].
    set (nodes' := sort_by_dimension pts d nodes) in *.
    assert (Hp' : Permutation nodes' (seq 1 (length pts))) by (etransitivity; eassumption).
    destruct (extend_ok d nodes' h []) as (L1 & D1 & F1).
    { cbn. eapply Permutation_NoDup; [symmetry; exact Hp' | apply seq_NoDup]. }
    { cbn. intros H. apply (Permutation_in _ Hp') in H. apply in_seq in H. lia. }
    { unfold linked. cbn. apply (Hhi d 0). lia. }
    exists (fun j => if j =? d then nodes' else A j).
    split; [exact Hp'|]. split; [exact Hss|]. split; [|split].
    + destruct D1 as (d1 & d2 & d3 & d4), Hf as (f1 & f2 & f3). unfold fresh. rewrite d1, d2, d4. auto.
    + intros j Hjd. destruct (Nat.eqb_spec j d) as [->|Hne].
      * split; [exact Hp'|]. split; [exact Hss | exact L1].
      * destruct (Hj j ltac:(lia)) as (J1 & J2 & J3). split; [exact J1|]. split; [exact J2|].
        eapply seg_ext; [| |exact J3]; intros y _; apply (F1 j y Hne).
    + intros j y Hjd. destruct (F1 j y ltac:(lia)) as [-> ->]. apply Hhi. lia.
Qed.

(** ** Counting cells *)

Section Cells.
  Variable c : nat -> nat -> Z.
  Variable L : nat.

  Definition zrange (n : nat) : list Z := map (fun i => (- Z.of_nat L + Z.of_nat i)%Z) (seq 0 n).

  Fixpoint cells (k : nat) (S : list nat) : list vec :=
    match k with
    | O => match S with [] => [] | _ => [[]] end
    | Datatypes.S k' => flat_map (fun t => map (fun z => z ++ [t]) (cells k' (filter (fun q => (c k' q <=? t)%Z) S))) (zrange L)
    end.

  Lemma flat_map_length_zsum (f : Z -> list vec) n :
    Z.of_nat (length (flat_map f (zrange n))) = zsum (fun t => Z.of_nat (length (f t))) (- Z.of_nat L) n.
  Proof.
    induction n as [|n IH]; [reflexivity|]. unfold zrange in *. rewrite seq_S, map_app, flat_map_app, app_length.
    cbn [zsum map flat_map plus]. rewrite app_nil_r, Nat2Z.inj_add, IH. reflexivity.
  Qed.

  Lemma cells_length k : forall S, Z.of_nat (length (cells k S)) = V c L k S.
  Proof.
    induction k as [|k IH]; intros S; [destruct S; reflexivity|]. cbn [cells V].
    rewrite flat_map_length_zsum. apply zsum_ext. intros t _. rewrite map_length. apply IH.
  Qed.

  Lemma in_zrange t : In t (zrange L) <-> (- Z.of_nat L <= t < 0)%Z.
  Proof.
    unfold zrange. rewrite in_map_iff. split.
    - intros (i & <- & Hi). apply in_seq in Hi. lia.
    - intros H. exists (Z.to_nat (t + Z.of_nat L)). split; [lia|]. apply in_seq. lia.
  Qed.

  Lemma in_cells k : forall S, (forall q i, In q S -> i < k -> (- Z.of_nat L <= c i q)%Z) ->
    forall z, In z (cells k S) <->
      length z = k /\ (forall i x, nth_error z i = Some x -> (x < 0)%Z) /\
      exists q, In q S /\ forall i x, nth_error z i = Some x -> (c i q <= x)%Z.
  Proof.
    induction k as [|k IH]; intros S HS z.
    - cbn. destruct S as [|q S].
      + cbn. split; [intros [] | intros (_ & _ & q & [] & _)].
      + cbn. split.
        * intros [<-|[]]. split; [reflexivity|]. split; [intros [|i] x H; discriminate|].
          exists q. split; [left; reflexivity | intros [|i] x H; discriminate].
        * intros (Hl & _). destruct z; [left; reflexivity | discriminate].
    - cbn [cells]. rewrite in_flat_map. split.
      + intros (t & Ht & Hz). apply in_map_iff in Hz. destruct Hz as (w & <- & Hw).
        apply in_zrange in Ht. apply IH in Hw.
        2: { intros q i Hq Hi. apply filter_In in Hq. apply HS; [apply Hq | lia]. }
        destruct Hw as (Hl & Hneg & q & Hq & Hle). apply filter_In in Hq. destruct Hq as [Hq Hqt]. apply Z.leb_le in Hqt.
        split; [rewrite app_length; cbn; lia|].
        assert (Hn : forall i x, nth_error (w ++ [t]) i = Some x -> nth_error w i = Some x \/ i = k /\ x = t).
        { intros i x Hix. destruct (lt_dec i k) as [Hi|Hi].
          - left. rewrite nth_error_app1 in Hix by lia. exact Hix.
          - right. rewrite nth_error_app2 in Hix by lia. rewrite Hl in Hix.
            destruct (i - k) as [|m] eqn:E; [|destruct m; discriminate]. cbn in Hix. injection Hix as <-.
            split; [lia | reflexivity]. }
        split.
        * intros i x Hix. destruct (Hn i x Hix) as [H|[_ ->]]; [apply (Hneg i x H) | lia].
        * exists q. split; [exact Hq|]. intros i x Hix. destruct (Hn i x Hix) as [H|[-> ->]]; [apply (Hle i x H) | exact Hqt].
      + intros (Hl & Hneg & q & Hq & Hle).
        destruct (exists_last (l := z)) as (w & t & ->); [destruct z; discriminate|].
        rewrite app_length in Hl. cbn in Hl. assert (Hwl : length w = k) by lia.
        assert (Hk : nth_error (w ++ [t]) k = Some t) by (rewrite nth_error_app2, Hwl, Nat.sub_diag by lia; reflexivity).
        pose proof (Hneg k t Hk) as Htn. pose proof (Hle k t Hk) as Htq. pose proof (HS q k Hq ltac:(lia)) as Hlo.
        exists t. split; [apply in_zrange; lia|]. apply in_map_iff. exists w. split; [reflexivity|].
        apply IH.
        { intros p i Hp Hi. apply filter_In in Hp. apply HS; [apply Hp | lia]. }
        assert (Hw : forall i x, nth_error w i = Some x -> nth_error (w ++ [t]) i = Some x).
        { intros i x Hix. rewrite nth_error_app1; [exact Hix|]. apply nth_error_Some' in Hix. exact Hix. }
        split; [exact Hwl|]. split; [intros i x Hix; apply (Hneg i x), Hw, Hix|].
        exists q. split; [apply filter_In; split; [exact Hq | apply Z.leb_le; exact Htq]|].
        intros i x Hix. apply Hle, Hw, Hix.
  Qed.

  Lemma nodup_flat_map (f : Z -> list vec) l :
    NoDup l -> (forall t, NoDup (f t)) -> (forall t t' z, In z (f t) -> In z (f t') -> t = t') ->
    NoDup (flat_map f l).
  Proof.
    intros Hnd Hf Hd. induction Hnd as [|t l Ht Hnd IH]; [constructor|]. cbn. apply NoDup_app_disj; auto.
    intros z Hz Hin. apply in_flat_map in Hin. destruct Hin as (t' & Ht' & Hz'). apply Ht.
    rewrite (Hd t t' z Hz Hz'). exact Ht'.
  Qed.

  Lemma cells_nodup k : forall S, NoDup (cells k S).
  Proof.
    induction k as [|k IH]; intros S; cbn.
    - destruct S; repeat constructor. intros [].
    - apply nodup_flat_map.
      + unfold zrange. apply FinFun.Injective_map_NoDup; [|apply seq_NoDup]. intros a b H. lia.
      + intros t. apply FinFun.Injective_map_NoDup; [|apply IH]. intros a b H. apply app_inj_tail in H. apply H.
      + intros t t' z Hz Hz'. apply in_map_iff in Hz, Hz'. destruct Hz as (w & <- & _), Hz' as (w' & He & _).
        apply app_inj_tail in He. symmetry. apply He.
  Qed.
End Cells.

(** ** compute *)

Definition inside (ref p : vec) : bool := forallb (fun ab => (fst ab <=? snd ab)%Z) (combine p ref).

Lemma inside_spec ref : forall p, length p = length ref -> inside ref p = true <-> Forall2 Z.le p ref.
Proof.
  unfold inside. intros p. revert ref. induction p as [|a p IH]; intros [|r ref] Hl; try discriminate.
  - cbn. split; [constructor | reflexivity].
  - cbn. rewrite andb_true_iff, Z.leb_le, IH by (cbn in Hl; lia). split.
    + intros [H1 H2]. constructor; assumption.
    + intros H. inversion H; subst. split; assumption.
Qed.

Lemma weakly_dominates_ok ref : forall p, length p = length ref -> weakly_dominates p ref = Some (inside ref p).
Proof.
  intros p. revert ref. induction p as [|a p IH]; intros [|r ref] Hl; try discriminate; [reflexivity|].
  cbn. unfold inside. cbn. rewrite IH by (cbn in Hl; lia).
  destruct (Z.ltb_spec r a), (Z.leb_spec a r); try lia; reflexivity.
Qed.

Lemma relevant_points_ok ref front : (forall p, In p front -> length p = length ref) ->
  relevant_points ref front = Some (filter (inside ref) front).
Proof.
  induction front as [|p front IH]; intros H; [reflexivity|]. cbn.
  rewrite (weakly_dominates_ok ref p) by (apply H; left; reflexivity).
  rewrite IH by (intros; apply H; right; assumption). destruct (inside ref p); reflexivity.
Qed.

Definition vsub (p ref : vec) : vec := map (fun ab => (fst ab - snd ab)%Z) (combine p ref).
Definition vadd (p ref : vec) : vec := map (fun ab => (fst ab + snd ab)%Z) (combine p ref).

Lemma shift_ok ref : forall p, length p = length ref -> shift ref p = Some (vsub p ref).
Proof.
  induction ref as [|r ref IH]; intros [|a p] Hl; try discriminate; [reflexivity|].
  cbn. rewrite IH by (cbn in Hl; lia). reflexivity.
Qed.

Lemma shift_all_ok ref ps : (forall p, In p ps -> length p = length ref) ->
  shift_all ref ps = Some (map (fun p => vsub p ref) ps).
Proof.
  induction ps as [|p ps IH]; intros H; [reflexivity|]. cbn.
  rewrite (shift_ok ref p) by (apply H; left; reflexivity). rewrite IH by (intros; apply H; right; assumption).
  reflexivity.
Qed.

Lemma vsub_zero ref : forall p, length p = length ref -> existsb (fun r => negb (r =? 0)%Z) ref = false -> vsub p ref = p.
Proof.
  induction ref as [|r ref IH]; intros [|a p] Hl H; try discriminate; [reflexivity|].
  cbn in H. apply orb_false_iff in H. destruct H as [H1 H2]. apply negb_false_iff, Z.eqb_eq in H1.
  unfold vsub. cbn. f_equal; [lia|]. apply IH; [cbn in Hl; lia | exact H2].
Qed.

Lemma vsub_length p ref : length p = length ref -> length (vsub p ref) = length ref.
Proof. intros H. unfold vsub. rewrite map_length, combine_length. lia. Qed.
Lemma vadd_length p ref : length p = length ref -> length (vadd p ref) = length ref.
Proof. intros H. unfold vadd. rewrite map_length, combine_length. lia. Qed.

Lemma nth_error_vsub ref : forall p i a r, nth_error p i = Some a -> nth_error ref i = Some r ->
  nth_error (vsub p ref) i = Some (a - r)%Z.
Proof.
  induction ref as [|r0 ref IH]; intros [|a0 p] [|i] a r Ha Hr; try discriminate; cbn in *.
  - congruence.
  - apply IH; assumption.
Qed.
Lemma nth_error_vadd ref : forall p i a r, nth_error p i = Some a -> nth_error ref i = Some r ->
  nth_error (vadd p ref) i = Some (a + r)%Z.
Proof.
  induction ref as [|r0 ref IH]; intros [|a0 p] [|i] a r Ha Hr; try discriminate; cbn in *.
  - congruence.
  - apply IH; assumption.
Qed.

Lemma vadd_vsub ref : forall z, length z = length ref -> vadd (vsub z ref) ref = z.
Proof.
  induction ref as [|r ref IH]; intros [|a z] Hl; try discriminate; [reflexivity|].
  unfold vadd, vsub in *. cbn. f_equal; [lia|]. apply IH. cbn in Hl. lia.
Qed.
Lemma vadd_inj ref : forall z z', length z = length ref -> length z' = length ref -> vadd z ref = vadd z' ref -> z = z'.
Proof.
  induction ref as [|r ref IH]; intros [|a z] [|a' z'] Hl Hl' H; try discriminate; [reflexivity|].
  unfold vadd in *. cbn in H. injection H as H1 H2. f_equal; [lia|]. apply IH; cbn in *; auto; lia.
Qed.

Lemma Forall2_nth' {T U} (R : T -> U -> Prop) : forall l l', length l = length l' ->
  (forall i a b, nth_error l i = Some a -> nth_error l' i = Some b -> R a b) -> Forall2 R l l'.
Proof.
  induction l as [|a l IH]; intros [|b l'] Hl H; try discriminate; constructor.
  - apply (H 0); reflexivity.
  - apply IH; [cbn in Hl; lia|]. intros i x y Hx Hy. apply (H (S i)); assumption.
Qed.

Lemma Forall2_nth2 {T U} (R : T -> U -> Prop) l l' : Forall2 R l l' ->
  forall i a b, nth_error l i = Some a -> nth_error l' i = Some b -> R a b.
Proof.
  induction 1 as [|x y l l' Hxy H IH]; intros [|i] a b Ha Hb; try discriminate; cbn in *.
  - congruence.
  - eapply IH; eassumption.
Qed.

Lemma nth_error_ex {T} (l : list T) i : i < length l -> exists a, nth_error l i = Some a.
Proof. intros H. destruct (nth_error l i) eqn:E; [eauto|]. apply nth_error_None in E. lia. Qed.

(** A common lower bound for finitely many coordinates. *)
Lemma lower_bound_exists (ps : list vec) : exists L : nat, forall p i a, In p ps -> nth_error p i = Some a -> (- Z.of_nat L <= a)%Z.
Proof.
  assert (Hv : forall p : vec, exists L : nat, forall i a, nth_error p i = Some a -> (- Z.of_nat L <= a)%Z).
  { induction p as [|x p (L & IH)].
    - exists 0. intros [|i] a H; discriminate.
    - exists (L + Z.to_nat (- x)). intros [|i] a H; cbn in H; [injection H as <-; lia|]. specialize (IH i a H). lia. }
  induction ps as [|p ps (L & IH)].
  - exists 0. intros p i a [].
  - destruct (Hv p) as (Lp & Hp). exists (L + Lp). intros p' i a [<-|Hin] Ha.
    + specialize (Hp i a Ha). lia.
    + specialize (IH p' i a Hin Ha). lia.
Qed.

Lemma lex_le_nth : forall p q, lex_le p q -> forall k a b,
  (forall i, i < k -> nth_error p i = nth_error q i) -> nth_error p k = Some a -> nth_error q k = Some b -> (a <= b)%Z.
Proof.
  induction p as [|x p IH]; intros [|y q] H [|k] a b He Ha Hb; try discriminate; cbn in *.
  - injection Ha as <-. injection Hb as <-. lia.
  - pose proof (He 0 ltac:(lia)) as H0. cbn in H0. injection H0 as <-. destruct H as [H|[_ H]]; [lia|].
    apply (IH q H k a b); [|exact Ha | exact Hb]. intros i Hi. apply (He (S i)). lia.
Qed.

(** When the coordinates of two nodes agree below [d], list d orders them by coordinate d and by
    node number. *)
Lemma order_agree pts p q : forall d, order pts d p q -> (forall i, i < d -> coord pts i p = coord pts i q) -> p < q.
Proof.
  induction d as [|d IH]; cbn; intros H He; [exact H|]. specialize (He d) as Hd. destruct H as [H|[_ H]]; [lia|].
  apply IH; [exact H|]. intros i Hi. apply He. lia.
Qed.

Lemma before_chain pts p q d :
  before pts 0 p q -> (forall i, i <= d -> (coord pts i p <= coord pts i q)%Z) -> forall j, j <= d -> before pts j p q.
Proof.
  intros H0 Hle. induction j as [|j IH]; intros Hj; [exact H0|]. specialize (IH ltac:(lia)).
  specialize (Hle (S j) Hj). unfold before in *. change (order pts (S (S j)) p q) with
    ((coord pts (S j) p < coord pts (S j) q)%Z \/ (coord pts (S j) p = coord pts (S j) q /\ order pts (S j) p q)).
  destruct (Z.eq_dec (coord pts (S j) p) (coord pts (S j) q)); [right; auto | left; lia].
Qed.

Lemma general_position_ties ref front : ref <> [] -> (forall p, In p front -> length p = length ref) ->
  general_position ref front -> ties_in_order ref front.
Proof.
  intros Href Hl [H1 H2]. split; [exact H1|].
  induction H2 as [|p l Hf H2 IH]; constructor.
  - rewrite Forall_forall in *. intros q Hq Hp' Hq' He. exfalso.
    specialize (Hf q Hq Hp' Hq'). destruct Hf as [|x y p q Hne Hf]; [|cbn in He; congruence].
    specialize (Hl [] (or_introl eq_refl)). destruct ref; [congruence | discriminate].
  - apply IH; intros; [apply Hl | apply H1]; try right; assumption.
Qed.

Lemma separated_ties ref front : separated ref front -> ties_in_order ref front.
Proof.
  intros [H1 H2]. split; [exact H1|]. clear H1.
  induction H2 as [|p l Hf H2 IH]; constructor; [|exact IH].
  rewrite Forall_forall in *. intros q Hq Hp' Hq' He. exfalso. exact (Hf q Hq Hp' Hq' He).
Qed.

Lemma sorted_ties ref front : (forall p, In p front -> Forall2 Z.le p ref -> Forall2 Z.lt p ref) ->
  StronglySorted lex_le front -> ties_in_order ref front.
Proof.
  intros H1 H2. split; [exact H1|]. clear H1.
  induction H2 as [|p l Hs IH Hf]; constructor; [|exact IH].
  rewrite Forall_forall in *. intros q Hq _ _ _. exact (Hf q Hq).
Qed.

Theorem compute_exact_ties neg ref front :
  ref <> [] -> (forall p, In p front -> length p = length ref) ->
  (length ref <= 3 \/ ties_in_order ref front) ->
  (3 <= length ref -> forall p, In p front -> Forall2 (fun a r => (neg <= a - r)%Z) p ref) ->
  exists v, compute neg ref front = Some v /\ is_hypervolume ref front v.
Proof.
  intros Href Hdims HG Hneg. unfold compute. rewrite (relevant_points_ok ref front Hdims).
  set (rel := filter (inside ref) front).
  assert (Hreld : forall p, In p rel -> length p = length ref).
  { intros p Hp. apply filter_In in Hp. apply Hdims, Hp. }
  set (pts := map (fun p => vsub p ref) rel).
  assert (Hsh : (if existsb (fun r => negb (r =? 0)%Z) ref then shift_all ref rel else Some rel) = Some pts).
  { destruct (existsb (fun r => negb (r =? 0)%Z) ref) eqn:E; [apply shift_all_ok, Hreld|].
    f_equal. unfold pts. rewrite <- (map_id rel) at 1. apply map_ext_in. intros p Hp. symmetry.
    apply vsub_zero; [apply Hreld, Hp | exact E]. }
  rewrite Hsh. destruct (length ref) as [|d] eqn:Edim; [destruct ref; [congruence | discriminate]|].
  set (D := S d).
  assert (Hdim : Forall (fun p => length p = D) pts).
  { apply Forall_forall. intros s Hs. unfold pts in Hs. apply in_map_iff in Hs. destruct Hs as (p & <- & Hp).
    rewrite vsub_length; [exact Edim | rewrite Edim; apply Hreld, Hp]. }
  destruct (lower_bound_exists pts) as (L & HL).
  assert (Hcoord : forall y i, valid pts y -> i < D -> exists p a r, nth_error rel (y - 1) = Some p /\ In p rel /\
     nth_error p i = Some a /\ nth_error ref i = Some r /\ coord pts i y = (a - r)%Z /\
     In (vsub p ref) pts /\ nth_error (vsub p ref) i = Some (a - r)%Z).
  { intros y i Hy Hi. unfold valid in Hy. destruct y as [|y]; [lia|].
    assert (Hyl : y < length rel) by (unfold pts in Hy; rewrite map_length in Hy; lia).
    destruct (nth_error_ex rel y Hyl) as (p & Hp). pose proof (nth_error_In' _ _ _ Hp) as Hpin.
    destruct (nth_error_ex p i) as (a & Ha); [rewrite (Hreld p Hpin); exact Hi|].
    destruct (nth_error_ex ref i) as (r & Hr); [rewrite Edim; exact Hi|].
    exists p, a, r. replace (S y - 1) with y by lia. split; [exact Hp|]. split; [exact Hpin|]. split; [exact Ha|]. split; [exact Hr|].
    pose proof (nth_error_vsub ref p i a r Ha Hr) as Hs.
    split; [|split; [apply in_map_iff; exists p; auto | exact Hs]].
    unfold coord, cg, cargo. unfold pts. rewrite (map_nth_error _ _ _ Hp), Hs. reflexivity. }
  assert (Hrelin : forall p, In p rel -> Forall2 Z.le p ref).
  { intros p Hp. apply inside_spec; [rewrite Edim; apply Hreld, Hp|]. apply filter_In in Hp. apply Hp. }
  assert (Hrange : forall y i, valid pts y -> i < D -> (- Z.of_nat L <= coord pts i y <= 0)%Z).
  { intros y i Hy Hi. destruct (Hcoord y i Hy Hi) as (p & a & r & _ & Hp & Ha & Hr & Hc & Hin & Hs). rewrite Hc. split.
    - apply (HL _ _ _ Hin Hs).
    - pose proof (Forall2_nth2 _ _ _ (Hrelin p Hp) i a r Ha Hr). cbn in H. lia. }
  assert (HGP : GP pts D \/ d <= 2).
  { destruct HG as [H3|[HG1 HG2]]; [right; lia|]. left. split.
    - intros y i Hy Hi. destruct (Hcoord y i Hy Hi) as (p & a & r & _ & Hp & Ha & Hr & Hc & _). rewrite Hc.
      assert (Hpf : In p front) by (apply filter_In in Hp; apply Hp).
      pose proof (Forall2_nth2 _ _ _ (HG1 p Hpf (Hrelin p Hp)) i a r Ha Hr). cbn in H. lia.
    - assert (HR : ForallOrdPairs (fun p q => hd_error p = hd_error q -> lex_le p q) rel).
      { assert (HR : ForallOrdPairs (fun p q => Forall2 Z.le p ref -> Forall2 Z.le q ref -> hd_error p = hd_error q -> lex_le p q) rel).
        { unfold rel. clear - HG2. induction HG2 as [|p l Hf HG2 IH]; [constructor|]. cbn.
          destruct (inside ref p); [|exact IH]. constructor; [|exact IH].
          rewrite Forall_forall in *. intros x Hx. apply filter_In in Hx. apply Hf, Hx. }
        revert HR Hrelin. generalize rel. clear. intros l HR. induction HR as [|p l Hf HR IH]; intros Hl; constructor.
        - rewrite Forall_forall in *. intros q Hq. apply Hf; [exact Hq | apply Hl; left; reflexivity | apply Hl; right; exact Hq].
        - apply IH. intros p' Hp'. apply Hl. right. exact Hp'. }
      assert (Hpair : forall m n q q', m < n -> nth_error rel m = Some q -> nth_error rel n = Some q' ->
                hd_error q = hd_error q' -> lex_le q q').
      { revert HR. generalize rel. clear. intros l HR m n q q' Hmn Hq Hq'. revert m n Hmn Hq Hq'.
        induction HR as [|p l Hf HR IH]; intros [|m] [|n] Hmn Hq Hq'; try lia; try discriminate; cbn in *.
        - injection Hq as ->. rewrite Forall_forall in Hf. apply Hf. apply nth_error_In' in Hq'. exact Hq'.
        - apply (IH m n); [lia | exact Hq | exact Hq']. }
      intros y y' e Hy Hy' He Hb Hle.
      assert (Hle' : forall i, i <= e -> (coord pts i y <= coord pts i y')%Z).
      { intros i Hi. destruct (Nat.eq_dec i e) as [->|Hne]; [apply before_le; exact Hb | apply Hle; lia]. }
      apply before_chain; [|exact Hle'].
      destruct (Z.lt_trichotomy (coord pts 0 y) (coord pts 0 y')) as [Hlt|[Heq|Hgt]]; [left; exact Hlt | | specialize (Hle' 0 ltac:(lia)); lia].
      right. split; [exact Heq|]. cbn.
      destruct (Nat.lt_total y y') as [Hlt|[Heqy|Hgt]]; [exact Hlt | subst y'; exfalso; exact (order_irrefl _ _ _ Hb)|].
      destruct (Hcoord y 0 Hy ltac:(unfold D; lia)) as (p & a & r & Hp0 & Hp & Ha & Hr & Hc & _).
      destruct (Hcoord y' 0 Hy' ltac:(unfold D; lia)) as (p' & a' & r' & Hp0' & Hp' & Ha' & Hr' & Hc' & _).
      rewrite Hr in Hr'. injection Hr' as <-.
      assert (Hlex : lex_le p' p).
      { apply (Hpair (y' - 1) (y - 1)); [unfold valid in *; lia | exact Hp0' | exact Hp0|].
        destruct p as [|u p], p' as [|u' p']; try discriminate. cbn in Ha, Ha'. cbn. f_equal. congruence || (injection Ha as ->; injection Ha' as ->; lia). }
      assert (Hnth : forall i, i < D -> exists b b' s, nth_error p i = Some b /\ nth_error p' i = Some b' /\
                coord pts i y = (b - s)%Z /\ coord pts i y' = (b' - s)%Z).
      { intros i Hi. destruct (Hcoord y i Hy Hi) as (p2 & b & s & Hp2 & _ & Hb2 & Hs & Hc2 & _).
        destruct (Hcoord y' i Hy' Hi) as (p2' & b' & s' & Hp2' & _ & Hb2' & Hs' & Hc2' & _).
        rewrite Hs in Hs'. injection Hs' as <-. rewrite Hp0 in Hp2. injection Hp2 as <-.
        rewrite Hp0' in Hp2'. injection Hp2' as <-. exists b, b', s. auto. }
      assert (Hag : forall k, k <= S e -> forall i, i < k -> nth_error p' i = nth_error p i).
      { induction k as [|k IHk]; intros Hk i Hi; [lia|].
        destruct (Nat.eq_dec i k) as [->|Hne]; [|apply IHk; lia].
        destruct (Hnth k ltac:(lia)) as (b & b' & s & Hb1 & Hb2 & Hc1 & Hc2).
        pose proof (lex_le_nth p' p Hlex k b' b (IHk ltac:(lia)) Hb2 Hb1). specialize (Hle' k ltac:(lia)).
        rewrite Hb1, Hb2. f_equal. lia. }
      apply (order_agree pts y y' (S e) Hb). intros i Hi.
      destruct (Hnth i ltac:(lia)) as (b & b' & s & Hb1 & Hb2 & Hc1 & Hc2).
      specialize (Hag (S e) ltac:(lia) i Hi). rewrite Hb1, Hb2 in Hag. injection Hag as <-. lia. }
  destruct (pre_process_ok pts neg D) as (A & HA).
  destruct (pre_process pts D (empty_heap neg)) as [nodes h] eqn:EP.
  destruct HA as (_ & _ & (Hf1 & Hf2 & Hf3) & HAj & _).
  assert (Hlen : length (A d) = length pts).
  { destruct (HAj d ltac:(unfold D; lia)) as (Hp & _). apply Permutation_length in Hp. rewrite seq_length in Hp. exact Hp. }
  (* the value *)
  assert (Hval : exists h', hv_recursive pts d (length pts) h = Some (V (coord pts) L D (seq 1 (length pts)), h')).
  { destruct (A d) as [|q Q] eqn:EAd.
    - cbn in Hlen. rewrite <- Hlen. exists h. cbn [seq]. rewrite V_nil. destruct d; reflexivity.
    - assert (Hne : A d <> []) by (rewrite EAd; discriminate). rewrite <- EAd in *.
      destruct (hv_recursive_ok pts D L Hdim Hrange d HGP A h) as (h' & E & _).
      + constructor.
        * constructor.
          -- unfold D. lia.
          -- intros j Hj. destruct (HAj j ltac:(unfold D; lia)) as (Hp & _). destruct (HAj d ltac:(unfold D; lia)) as (Hp' & _).
             etransitivity; [exact Hp | symmetry; exact Hp'].
          -- intros j Hj. apply (HAj j). unfold D. lia.
          -- destruct (HAj d ltac:(unfold D; lia)) as (Hp & _). eapply Permutation_NoDup; [symmetry; exact Hp | apply seq_NoDup].
          -- intros y Hy. destruct (HAj d ltac:(unfold D; lia)) as (Hp & _). apply (Permutation_in _ Hp) in Hy.
             apply in_seq in Hy. unfold valid. lia.
        * intros j Hj. apply (HAj j). unfold D. lia.
        * intros j. apply Hf2.
        * intros _ j Hj B y C HE Hlt. exfalso. rewrite Hf3 in Hlt.
          assert (Hy : valid pts y).
          { destruct (HAj j ltac:(unfold D; lia)) as (Hp & _).
            assert (Hin : In y (A j)) by (rewrite HE; apply in_or_app; right; left; reflexivity).
            apply (Permutation_in _ Hp) in Hin. apply in_seq in Hin. unfold valid. lia. }
          destruct (Hcoord y j Hy ltac:(unfold D; lia)) as (p & a & r & _ & Hp & Ha & Hr & Hc & _).
          assert (Hpf : In p front) by (apply filter_In in Hp; apply Hp).
          pose proof (Forall2_nth2 _ _ _ (Hneg ltac:(lia) p Hpf) j a r Ha Hr) as Hn. cbn in Hn. lia.
        * intros H2 y _ Hi. rewrite Hf1 in Hi. exfalso. lia.
      + exact Hne.
      + exists h'. rewrite Hlen in E. rewrite E. do 2 f_equal. apply V_perm. apply (HAj d). unfold D. lia. }
  destruct Hval as (h' & E). rewrite E. eexists. split; [reflexivity|].
  exists (map (fun z => vadd z ref) (cells (coord pts) L D (seq 1 (length pts)))).
  assert (Hcell : forall z, In z (cells (coord pts) L D (seq 1 (length pts))) <->
      length z = D /\ (forall i x, nth_error z i = Some x -> (x < 0)%Z) /\
      exists q, In q (seq 1 (length pts)) /\ forall i x, nth_error z i = Some x -> (coord pts i q <= x)%Z).
  { apply in_cells. intros q i Hq Hi. apply Hrange; [|exact Hi]. apply in_seq in Hq. unfold valid. lia. }
  assert (Hzl : forall z, In z (cells (coord pts) L D (seq 1 (length pts))) -> length z = length ref).
  { intros z Hz. apply Hcell in Hz. rewrite Edim. apply Hz. }
  split; [|split].
  - pose proof (cells_nodup (coord pts) L D (seq 1 (length pts))) as Hn.
    revert Hn Hzl. generalize (cells (coord pts) L D (seq 1 (length pts))). clear.
    intros l Hn Hl. induction Hn as [|z l Hz Hn IH]; [constructor|]. cbn. constructor.
    + rewrite in_map_iff. intros (w & He & Hw). apply vadd_inj in He; [|apply Hl; right; exact Hw | apply Hl; left; reflexivity].
      subst. contradiction.
    + apply IH. intros w Hw. apply Hl. right. exact Hw.
  - intros z. rewrite in_map_iff. unfold cell_in. split.
    + intros (w & <- & Hw). apply Hcell in Hw. destruct Hw as (Hl & Hng & q & Hq & Hle).
      assert (Hl' : length w = length ref) by (rewrite Edim; exact Hl).
      split.
      * apply Forall2_nth'; [apply vadd_length; exact Hl'|]. intros i b r Hb Hr.
        destruct (nth_error_ex w i) as (x & Hx); [apply nth_error_Some' in Hr; lia|].
        rewrite (nth_error_vadd ref w i x r Hx Hr) in Hb. injection Hb as <-. specialize (Hng i x Hx). lia.
      * assert (Hvq : valid pts q) by (apply in_seq in Hq; unfold valid; lia).
        destruct (Hcoord q 0 Hvq ltac:(unfold D; lia)) as (p & _ & _ & Hp0 & Hp & _).
        exists p. split; [apply filter_In in Hp; apply Hp|].
        apply Forall2_nth'; [rewrite vadd_length, Edim by exact Hl'; apply Hreld, Hp|]. intros i a b Ha Hb.
        assert (Hi : i < D) by (apply nth_error_Some' in Ha; rewrite (Hreld p Hp) in Ha; exact Ha).
        destruct (Hcoord q i Hvq Hi) as (p2 & a2 & r & Hp2 & _ & Ha2 & Hr & Hc & _).
        rewrite Hp0 in Hp2. injection Hp2 as <-. rewrite Ha in Ha2. injection Ha2 as <-.
        destruct (nth_error_ex w i) as (x & Hx); [lia|].
        rewrite (nth_error_vadd ref w i x r Hx Hr) in Hb. injection Hb as <-.
        specialize (Hle i x Hx). lia.
    + intros (Hlt & p & Hp & Hle).
      assert (Hzl' : length z = length ref) by (apply Forall2_length' in Hlt; exact Hlt).
      exists (vsub z ref). split; [apply vadd_vsub; exact Hzl'|]. apply Hcell.
      split; [rewrite vsub_length by exact Hzl'; exact Edim|].
      assert (Hnth : forall i x, nth_error (vsub z ref) i = Some x -> exists a r, nth_error z i = Some a /\ nth_error ref i = Some r /\ x = (a - r)%Z).
      { intros i x Hx. assert (Hi : i < length ref) by (apply nth_error_Some' in Hx; rewrite vsub_length in Hx by exact Hzl'; exact Hx).
        destruct (nth_error_ex z i ltac:(lia)) as (a & Ha). destruct (nth_error_ex ref i Hi) as (r & Hr).
        exists a, r. rewrite (nth_error_vsub ref z i a r Ha Hr) in Hx. injection Hx as <-. auto. }
      split.
      * intros i x Hx. destruct (Hnth i x Hx) as (a & r & Ha & Hr & ->).
        pose proof (Forall2_nth2 _ _ _ Hlt i a r Ha Hr). cbn in H. lia.
      * assert (Hprel : In p rel).
        { apply filter_In. split; [exact Hp|]. apply inside_spec; [rewrite Edim; apply Hdims, Hp|].
          apply Forall2_nth'; [rewrite Edim; apply Hdims, Hp|]. intros i a r Ha Hr.
          destruct (nth_error_ex z i) as (b & Hb); [apply nth_error_Some' in Hr; lia|].
          pose proof (Forall2_nth2 _ _ _ Hle i a b Ha Hb). pose proof (Forall2_nth2 _ _ _ Hlt i b r Hb Hr). cbn in *. lia. }
        apply In_nth_error in Hprel. destruct Hprel as (m & Hm).
        assert (Hml : m < length pts) by (apply nth_error_Some' in Hm; unfold pts; rewrite map_length; exact Hm).
        exists (S m). split; [apply in_seq; lia|]. intros i x Hx. destruct (Hnth i x Hx) as (b & r & Hb & Hr & ->).
        assert (Hi : i < D) by (apply nth_error_Some' in Hr; rewrite Edim in Hr; exact Hr).
        destruct (Hcoord (S m) i) as (p2 & a & r2 & Hp2 & _ & Ha & Hr2 & Hc & _); [unfold valid; lia | exact Hi|].
        replace (S m - 1) with m in Hp2 by lia. rewrite Hm in Hp2. injection Hp2 as <-.
        rewrite Hr in Hr2. injection Hr2 as <-. rewrite Hc.
        pose proof (Forall2_nth2 _ _ _ Hle i a b Ha Hb). cbn in *. lia.
  - rewrite map_length. symmetry. apply cells_length.
Qed.

Theorem compute_exact neg ref front :
  ref <> [] -> (forall p, In p front -> length p = length ref) ->
  (length ref <= 3 \/ general_position ref front) ->
  (3 <= length ref -> forall p, In p front -> Forall2 (fun a r => (neg <= a - r)%Z) p ref) ->
  exists v, compute neg ref front = Some v /\ is_hypervolume ref front v.
Proof.
  intros H1 H2 H3 H4. apply compute_exact_ties; try assumption.
  destruct H3 as [H3|H3]; [left; exact H3 | right; apply general_position_ties; assumption].
Qed.

(** ** Consequences of being the measure *)

Lemma hv_mono ref f f' v v' : is_hypervolume ref f v -> is_hypervolume ref f' v' ->
  (forall p, In p f -> exists q, In q f' /\ Forall2 Z.le q p) -> (v <= v')%Z.
Proof.
  intros (l & Hnd & Hin & ->) (l' & Hnd' & Hin' & ->) H.
  apply inj_le. apply NoDup_incl_length; [exact Hnd|]. intros z Hz. apply Hin in Hz. apply Hin'.
  destruct Hz as (Hlt & p & Hp & Hle). split; [exact Hlt|]. destruct (H p Hp) as (q & Hq & Hqp).
  exists q. split; [exact Hq|]. clear - Hqp Hle. revert z Hle. induction Hqp as [|a b q p Hab Hqp IH]; intros z Hle;
    inversion Hle; subst; constructor; [lia | auto].
Qed.

Lemma Forall2_Zle_refl p : Forall2 Z.le p p.
Proof. induction p; constructor; [lia | assumption]. Qed.

Lemma hv_unique ref f f' v v' : is_hypervolume ref f v -> is_hypervolume ref f' v' ->
  (forall p, In p f <-> In p f') -> v = v'.
Proof.
  intros H H' He. apply Z.le_antisymm; eapply hv_mono; eauto; intros p Hp; exists p;
    (split; [apply He, Hp | apply Forall2_Zle_refl]).
Qed.

Lemma hv_at_least ref f v : is_hypervolume ref f v -> forall l, NoDup l -> (forall z, In z l -> cell_in ref f z) ->
  (Z.of_nat (length l) <= v)%Z.
Proof.
  intros (l' & Hnd' & Hin' & ->) l Hnd Hl. apply inj_le. apply NoDup_incl_length; [exact Hnd|].
  intros z Hz. apply Hin', Hl, Hz.
Qed.

(** A checkable lower bound for concrete fronts. *)
Definition cell_inb (ref : vec) (f : list vec) (z : vec) : bool :=
  (length z =? length ref) && forallb (fun ab => (fst ab <? snd ab)%Z) (combine z ref) &&
  existsb (fun p => (length p =? length z) && forallb (fun ab => (fst ab <=? snd ab)%Z) (combine p z)) f.

Lemma Forall2_combine {T} (R : T -> T -> Prop) (r : T * T -> bool) : (forall a b, r (a, b) = true -> R a b) ->
  forall l l', length l = length l' -> forallb r (combine l l') = true -> Forall2 R l l'.
Proof.
  intros HR. induction l as [|a l IH]; intros [|b l'] Hl H; try discriminate; constructor; cbn in H; apply andb_true_iff in H.
  - apply HR, H.
  - apply IH; [cbn in Hl; lia | apply H].
Qed.

Lemma cell_inb_ok ref f z : cell_inb ref f z = true -> cell_in ref f z.
Proof.
  unfold cell_inb. rewrite !andb_true_iff, Nat.eqb_eq, existsb_exists. intros [[Hl Hlt] (p & Hp & Hle)].
  apply andb_true_iff in Hle. destruct Hle as [Hle1 Hle2]. apply Nat.eqb_eq in Hle1. split.
  - apply (Forall2_combine _ (fun ab => (fst ab <? snd ab)%Z)); [|exact Hl | exact Hlt]. intros a b. cbn. apply Z.ltb_lt.
  - exists p. split; [exact Hp|].
    apply (Forall2_combine _ (fun ab => (fst ab <=? snd ab)%Z)); [|exact Hle1 | exact Hle2]. intros a b. cbn. apply Z.leb_le.
Qed.

Fixpoint grid (n d : nat) : list vec :=
  match d with
  | O => [[]]
  | S d' => flat_map (fun v => map (fun k => Z.of_nat k :: v) (seq 0 n)) (grid n d')
  end.

Lemma grid_nodup n d : NoDup (grid n d).
Proof.
  induction d as [|d IH]; [repeat constructor; intros []|]. cbn.
  induction IH as [|v l Hv Hl IHl]; [constructor|]. cbn. apply NoDup_app_disj; [|exact IHl|].
  - apply FinFun.Injective_map_NoDup; [|apply seq_NoDup]. intros a b H. injection H. lia.
  - intros z Hz Hin. apply in_flat_map in Hin. destruct Hin as (w & Hw & Hzw).
    apply in_map_iff in Hz, Hzw. destruct Hz as (k & <- & _), Hzw as (k' & He & _). injection He as _ <-. contradiction.
Qed.

Lemma too_small ref f v n : (v < Z.of_nat (length (filter (cell_inb ref f) (grid n (length ref)))))%Z -> ~ is_hypervolume ref f v.
Proof.
  intros Hv H. pose proof (hv_at_least ref f v H (filter (cell_inb ref f) (grid n (length ref)))) as Hge.
  assert ((Z.of_nat (length (filter (cell_inb ref f) (grid n (length ref)))) <= v)%Z); [|lia]. apply Hge.
  - apply NoDup_filter, grid_nodup.
  - intros z Hz. apply filter_In in Hz. apply cell_inb_ok, Hz.
Qed.

(** ** Remove and reinsert *)

Lemma seg_ring n p A : linked n p A <-> ring n p A.
Proof.
  unfold linked, ring. split.
  - intros H.
    assert (G : forall A a, seg n p a A 0 -> forall l1 x y l2, a :: A ++ [0] = l1 ++ x :: y :: l2 -> n x = y /\ p y = x).
    { clear. induction A as [|z A IH]; intros a H l1 x y l2 HE; cbn in HE, H.
      - destruct l1 as [|w l1]; cbn in HE.
        + injection HE as <- <- _. exact H.
        + destruct l1 as [|w' l1]; [discriminate|]. destruct l1; discriminate.
      - destruct H as (H1 & H2 & H3). destruct l1 as [|w l1]; cbn in HE.
        + injection HE as -> -> _. auto.
        + injection HE as _ HE. apply (IH z H3 l1 x y l2 HE). }
    intros l1 a b l2. apply (G A 0 H).
  - intros H.
    assert (G : forall A a, (forall l1 x y l2, a :: A ++ [0] = l1 ++ x :: y :: l2 -> n x = y /\ p y = x) -> seg n p a A 0).
    { clear. induction A as [|z A IH]; intros a H; cbn.
      - apply (H [] a 0 []). reflexivity.
      - destruct (H [] a z (A ++ [0]) eq_refl) as [H1 H2]. repeat split; auto. apply IH.
        intros l1 x y l2 HE. apply (H (a :: l1) x y l2). cbn. cbn in HE. rewrite HE. reflexivity. }
    apply G. exact H.
Qed.

Lemma filter_remove x l : NoDup l -> In x l -> exists X Y, l = X ++ x :: Y /\
  filter (fun y => negb (y =? x)) l = X ++ Y.
Proof.
  intros Hnd Hx. apply in_split in Hx. destruct Hx as (X & Y & ->). exists X, Y. split; [reflexivity|].
  apply NoDup_remove_2 in Hnd. rewrite filter_app. cbn [filter]. rewrite Nat.eqb_refl. cbn [negb].
  rewrite !filter_all; [reflexivity| |]; intros y Hy; apply negb_true_iff, Nat.eqb_neq; intros ->; apply Hnd, in_or_app; auto.
Qed.

Lemma reinsert_all_app pts d a b h : reinsert_all pts d (a ++ b) h =
  match reinsert_all pts d a h with Some h' => reinsert_all pts d b h' | None => None end.
Proof.
  revert h. induction a as [|x a IH]; intros h; [reflexivity|]. cbn. destruct (reinsert pts x d h); [apply IH | reflexivity].
Qed.

Lemma remove_reinsert_ok pts d : forall xs h A,
  NoDup xs -> (forall x i, In x xs -> i < d -> cg pts x i <> None) ->
  (forall i, i < d -> NoDup (A i) /\ ~ In 0 (A i) /\ incl xs (A i) /\ linked (nx h i) (pv h i) (A i)) ->
  exists h1 h2, remove_all pts d xs h = Some h1 /\ reinsert_all pts d (rev xs) h1 = Some h2 /\
    (forall i, i < d -> linked (nx h1 i) (pv h1 i) (filter (fun y => negb (inb y xs)) (A i))) /\
    (forall i y, d <= i -> nx h1 i y = nx h i y /\ pv h1 i y = pv h i y) /\
    leq (links_of h2) (links_of h).
Proof.
  induction xs as [|x xs IH]; intros h A Hnd Hcg HA.
  - exists h, h. cbn. split; [reflexivity|]. split; [reflexivity|]. split; [|split; [auto | apply leq_refl]].
    intros i Hi. rewrite filter_all by reflexivity. apply (HA i Hi).
  - inversion Hnd as [|? ? Hx Hnd']; subst.
    destruct (remove_ok pts d x h) as (h1 & E1 & B1 & L1).
    { intros i Hi. apply Hcg; [left; reflexivity | exact Hi]. }
    set (A' := fun i => filter (fun y => negb (y =? x)) (A i)).
    destruct (IH h1 A' Hnd') as (h2 & h3 & E2 & E3 & G1 & G2 & G3).
    { intros z i Hz Hi. apply Hcg; [right; exact Hz | exact Hi]. }
    { intros i Hi. destruct (HA i Hi) as (N1 & N2 & N3 & N4).
      destruct (filter_remove x (A i) N1) as (X & Y & F1 & F2); [apply N3; left; reflexivity|].
      split; [apply NoDup_filter; exact N1|]. split; [intros H; apply filter_In in H; apply N2, H|].
      split.
      - intros z Hz. apply filter_In. split; [apply N3; right; exact Hz|]. apply negb_true_iff, Nat.eqb_neq.
        intros ->. contradiction.
      - unfold A'. rewrite F2. apply (linked_leq (rm d x (links_of h)) (links_of h1)); [apply leq_sym; exact L1|].
        apply rm_linked; [exact Hi | | |]; rewrite <- F1; assumption. }
    cbn [remove_all rev]. rewrite E1. exists h2.
    assert (Har : forall i, i < d -> fst (links_of h) i (snd (links_of h) i x) = x /\
        snd (links_of h) i (fst (links_of h) i x) = x /\ snd (links_of h) i x <> x /\ fst (links_of h) i x <> x).
    { intros i Hi. destruct (HA i Hi) as (N1 & N2 & N3 & N4).
      destruct (filter_remove x (A i) N1) as (X & Y & F1 & F2); [apply N3; left; reflexivity|].
      rewrite F1 in N1, N2, N4. eapply seg_around; eauto. }
    destruct (reinsert_ok pts d x h3) as (h4 & E4 & B4 & L4).
    { intros i Hi. apply Hcg; [left; reflexivity | exact Hi]. }
    { intros i Hi. destruct (G3 i x) as [_ Hp]. destruct (L1 i x) as [_ Hp']. cbn [links_of snd] in Hp, Hp'.
      rewrite Hp, Hp'. cbn [rm snd links_of fst].
      destruct (Har i Hi) as (_ & _ & Ha & Hb). cbn [links_of fst snd] in Ha, Hb.
      destruct (Nat.ltb_spec i d); [|lia]. cbn [andb].
      destruct (Nat.eqb_spec x (nx h i x)); [congruence | exact Ha]. }
    exists h4. split; [exact E2|]. split.
    { rewrite reinsert_all_app, E3. cbn. rewrite E4. reflexivity. }
    split; [|split].
    + intros i Hi. specialize (G1 i Hi). unfold A' in G1. rewrite filter_filter in G1.
      erewrite filter_ext; [exact G1|]. intros y. cbn. unfold inb. cbn.
      destruct (y =? x); cbn; [reflexivity|]. rewrite ?andb_true_r. reflexivity.
    + intros i y Hi. destruct (G2 i y Hi) as [G2a G2b]. destruct (L1 i y) as [L1a L1b].
      cbn [links_of rm fst snd] in L1a, L1b. destruct (Nat.ltb_spec i d); [lia|]. cbn [andb] in *. split; congruence.
    + eapply leq_trans; [exact L4|]. eapply leq_trans; [apply ins_leq; eapply leq_trans; [exact G3 | exact L1]|].
      apply ins_rm. exact Har.
Qed.

(** ** Properties in their public form *)

Lemma exact_low neg ref front : 1 <= length ref <= 3 -> (forall p, In p front -> length p = length ref) ->
  (length ref = 3 -> forall p, In p front -> Forall2 (fun a r => (neg <= a - r)%Z) p ref) ->
  exists v, compute neg ref front = Some v /\ is_hypervolume ref front v.
Proof.
  intros Hl Hd Hn. apply compute_exact; [intros ->; cbn in Hl; lia | exact Hd | left; lia |].
  intros H. apply Hn. lia.
Qed.

Lemma low_value neg ref front v : 1 <= length ref <= 3 -> (forall p, In p front -> length p = length ref) ->
  (length ref = 3 -> forall p, In p front -> Forall2 (fun a r => (neg <= a - r)%Z) p ref) ->
  compute neg ref front = Some v -> is_hypervolume ref front v.
Proof.
  intros Hl Hd Hn E. destruct (exact_low neg ref front Hl Hd Hn) as (w & E' & H). congruence.
Qed.

Lemma compute_low_same neg ref f f' : 1 <= length ref <= 3 ->
  (forall p, In p f \/ In p f' -> length p = length ref) ->
  (length ref = 3 -> forall p, In p f \/ In p f' -> Forall2 (fun a r => (neg <= a - r)%Z) p ref) ->
  (forall p, In p f -> exists q, In q f' /\ Forall2 Z.le q p) ->
  (forall p, In p f' -> exists q, In q f /\ Forall2 Z.le q p) ->
  compute neg ref f = compute neg ref f'.
Proof.
  intros Hl Hd Hn H1 H2.
  destruct (exact_low neg ref f Hl) as (v & -> & Hv); [auto | auto|].
  destruct (exact_low neg ref f' Hl) as (v' & -> & Hv'); [auto | auto|].
  f_equal. apply Z.le_antisymm; eapply hv_mono; eauto.
Qed.

Lemma multilist_ok pts d xs h A :
  NoDup xs -> (forall x, In x xs -> exists p, nth_error pts (x - 1) = Some p /\ d <= length p) ->
  (forall i, i < d -> NoDup (A i) /\ ~ In 0 (A i) /\ incl xs (A i) /\ ring (nx h i) (pv h i) (A i)) ->
  exists h1 h2, remove_all pts d xs h = Some h1 /\ reinsert_all pts d (rev xs) h1 = Some h2 /\
    (forall i, i < d -> exists B, ring (nx h1 i) (pv h1 i) B /\
       B = filter (fun y => negb (existsb (Nat.eqb y) xs)) (A i)) /\
    (forall i y, d <= i -> nx h1 i y = nx h i y /\ pv h1 i y = pv h i y) /\
    (forall i y, nx h2 i y = nx h i y /\ pv h2 i y = pv h i y).
Proof.
  intros Hnd Hx HA.
  destruct d as [|d'].
  { exists h, h. assert (E1 : forall xs h, remove_all pts 0 xs h = Some h) by (induction xs0; intros; cbn; auto).
    assert (E2 : forall xs h, reinsert_all pts 0 xs h = Some h) by (induction xs0; intros; cbn; auto).
    rewrite E1, E2. repeat split; auto; lia. }
  destruct (remove_reinsert_ok pts (S d') xs h A Hnd) as (h1 & h2 & E1 & E2 & G1 & G2 & G3).
  - intros x i Hxx Hi. destruct (Hx x Hxx) as (p & Hp & Hlp).
    assert (x <> 0). { intros ->. destruct (HA i Hi) as (_ & H0 & Hincl & _). apply H0, Hincl, Hxx. }
    unfold cg. destruct x as [|x]; [congruence|].
    replace (S x - 1) with x in Hp by lia. replace (cargo pts (S x)) with (Some p) by (symmetry; exact Hp). apply nth_error_Some. lia.
  - intros i Hi. destruct (HA i Hi) as (? & ? & ? & Hr). rewrite seg_ring. auto.
  - exists h1, h2. split; [exact E1|]. split; [exact E2|]. split; [|split; [exact G2 | exact G3]].
    intros i Hi. eexists. split; [|reflexivity]. apply seg_ring. apply G1, Hi.
Qed.

Lemma preprocessed_ok pts neg dims nodes h : pre_process pts dims (empty_heap neg) = (nodes, h) ->
  forall i, i < dims -> exists l, ring (nx h i) (pv h i) l /\ Permutation l (seq 1 (length pts)) /\
    StronglySorted (fun a b => (coord pts i a <= coord pts i b)%Z) l.
Proof.
  intros E i Hi. destruct (pre_process_ok pts neg dims) as (A & H). rewrite E in H.
  destruct H as (_ & _ & _ & H & _). destruct (H i Hi) as (H1 & H2 & H3).
  exists (A i). split; [apply seg_ring; exact H3|]. split; [exact H1 | apply ordered_sortedc; exact H2].
Qed.
