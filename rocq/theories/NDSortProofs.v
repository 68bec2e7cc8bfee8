From Verif Require Import Spec Base DomModel DomProofs NDSortModel.

Lemma upd_same {B} (m : nat -> B) k v : upd m k v k = v.
Proof. unfold upd. now rewrite Nat.eqb_refl. Qed.
Lemma upd_other {B} (m : nat -> B) k v i : i <> k -> upd m k v i = m i.
Proof. unfold upd. intros H. destruct (Nat.eqb_spec i k); congruence. Qed.

Definition occ (l : list nat) (y : nat) : Z := Z.of_nat (count_occ Nat.eq_dec l y).

Lemma occ_nonneg l y : (0 <= occ l y)%Z.
Proof. unfold occ. lia. Qed.

Lemma occ_cons a l y : occ (a :: l) y = ((if (a =? y)%nat then 1 else 0) + occ l y)%Z.
Proof.
  unfold occ. simpl. destruct (Nat.eq_dec a y); destruct (Nat.eqb_spec a y); try congruence; lia.
Qed.

Lemma occ_app l l' y : occ (l ++ l') y = (occ l y + occ l' y)%Z.
Proof. unfold occ. rewrite count_occ_app. lia. Qed.

(** A run of decrements over a list of targets. *)
Lemma decrement_run l :
  forall counts next,
    NoDup next ->
    (forall y, In y next -> (counts y <= 0)%Z) ->
    let '(counts', next') := fold_left decrement l (counts, next) in
    (forall y, counts' y = counts y - occ l y)%Z /\
    NoDup next' /\
    (forall y, In y next' <-> In y next \/ (1 <= counts y <= occ l y)%Z).
Proof.
  induction l as [|a l IH]; intros counts next Hnd Hle.
  - simpl. split; [|split]; auto.
    + intros y. unfold occ. simpl. lia.
    + intros y. unfold occ. simpl. split; [auto|]. intros [H|H]; auto. lia.
  - cbn [fold_left decrement].
    set (c := (counts a - 1)%Z).
    specialize (IH (upd counts a c) (if (c =? 0)%Z then next ++ [a] else next)).
    assert (H1 : NoDup (if (c =? 0)%Z then next ++ [a] else next)).
    { destruct (Z.eqb_spec c 0) as [E|E]; auto.
      apply Permutation_NoDup with (a :: next); [apply Permutation_cons_append|].
      constructor; auto. intros Hin. specialize (Hle a Hin). subst c. lia. }
    assert (H2 : forall y, In y (if (c =? 0)%Z then next ++ [a] else next) ->
                           (upd counts a c y <= 0)%Z).
    { intros y Hy. destruct (Nat.eq_dec y a) as [->|Hne].
      - rewrite upd_same. destruct (Z.eqb_spec c 0); [lia|].
        specialize (Hle a Hy). subst c. lia.
      - rewrite upd_other by auto. destruct (Z.eqb_spec c 0); auto.
        apply in_app_or in Hy. destruct Hy as [Hy|[Hy|[]]]; [auto|congruence]. }
    specialize (IH H1 H2).
    destruct (fold_left decrement l (upd counts a c, if (c =? 0)%Z then next ++ [a] else next))
      as [counts' next'].
    destruct IH as (IA & IB & IC).
    split; [|split]; auto.
    + intros y. rewrite IA, occ_cons. destruct (Nat.eq_dec y a) as [->|Hne].
      * rewrite upd_same, Nat.eqb_refl. subst c. lia.
      * rewrite upd_other by auto. destruct (Nat.eqb_spec a y); [congruence|lia].
    + intros y. rewrite IC, occ_cons.
      pose proof (occ_nonneg l y) as Hoc.
      destruct (Nat.eq_dec y a) as [->|Hne].
      * rewrite upd_same, Nat.eqb_refl. destruct (Z.eqb_spec c 0) as [E|E].
        -- rewrite in_app_iff. cbn [In]. subst c. split; intros H; [|destruct H as [H|H]; auto].
           destruct H as [[H|[H|[]]]|H]; auto; right; lia.
        -- subst c. split; intros [H|H]; auto; right; lia.
      * rewrite upd_other by auto. destruct (Nat.eqb_spec a y); [congruence|].
        destruct (Z.eqb_spec c 0) as [E|E].
        -- rewrite in_app_iff. cbn [In]. split.
           ++ intros [[H|[H|[]]]|H]; auto; try congruence.
           ++ intros [H|H]; auto.
        -- split; intros [H|H]; auto.
Qed.

Section CountingProofs.
  Variable dom : nat -> nat -> bool.
  Variable set_iter : nat -> list nat -> list nat.
  Variable inds : list nat.
  Hypothesis iter_perm : forall x l, Permutation (set_iter x l) l.
  Hypothesis inds_nodup : NoDup inds.
  Hypothesis dom_irrefl : forall x, In x inds -> dom x x = false.
  Hypothesis dom_trans : forall x y z, In x inds -> In y inds -> In z inds ->
    dom x y = true -> dom y z = true -> dom x z = true.

  Lemma dom_asym x y : In x inds -> In y inds -> dom x y = true -> dom y x = false.
  Proof.
    intros Hx Hy H. destruct (dom y x) eqn:E; auto.
    rewrite <- (dom_irrefl x Hx). symmetry. eapply dom_trans; eauto.
  Qed.

  Lemma compare_with_all_run x l :
    forall ds c,
      fold_left (fun '(ds, c) y => if dom x y then (ds ++ [y], c)
                 else if dom y x then (ds, c + 1)%Z else (ds, c)) l (ds, c) =
      (ds ++ filter (dom x) l,
       (c + Z.of_nat (length (filter (fun y => negb (dom x y) && dom y x) l)))%Z).
  Proof.
    induction l as [|a l IH]; intros ds c.
    - simpl. rewrite app_nil_r. f_equal. lia.
    - cbn [fold_left filter]. destruct (dom x a) eqn:E1; cbn [negb andb].
      + rewrite IH, <- app_assoc. reflexivity.
      + destruct (dom a x) eqn:E2; rewrite IH; auto. f_equal. cbn [length]. lia.
  Qed.

  Definition dominators (y : nat) : list nat := filter (fun x => dom x y) inds.

  Lemma dominated_by_eq x : dominated_by dom inds x = filter (dom x) inds.
  Proof. unfold dominated_by, compare_with_all. now rewrite compare_with_all_run. Qed.

  Lemma count_eq x : In x inds ->
    snd (compare_with_all dom inds x) = Z.of_nat (length (dominators x)).
  Proof.
    intros Hx. unfold compare_with_all. rewrite compare_with_all_run. cbn [snd].
    rewrite Z.add_0_l. do 2 f_equal. apply filter_ext_In. intros y Hy.
    destruct (dom y x) eqn:E; [|now rewrite andb_false_r].
    rewrite (dom_asym y x Hy Hx E). reflexivity.
  Qed.

  Lemma initial_counts_eq x : In x inds ->
    initial_counts dom inds x = Z.of_nat (length (dominators x)).
  Proof.
    intros Hx. rewrite <- count_eq by auto. unfold initial_counts.
    assert (G : forall l m,
      fold_left (fun m x => upd m x (snd (compare_with_all dom inds x))) l m x =
      if existsb (Nat.eqb x) l then snd (compare_with_all dom inds x) else m x).
    { induction l as [|a l IH]; intros m; [reflexivity|].
      cbn [fold_left existsb]. rewrite IH. destruct (existsb (Nat.eqb x) l).
      - now rewrite orb_true_r.
      - rewrite orb_false_r. destruct (Nat.eqb_spec x a) as [->|Hne].
        + now rewrite upd_same.
        + now rewrite upd_other. }
    rewrite G. replace (existsb (Nat.eqb x) inds) with true; auto.
    symmetry. apply existsb_exists. exists x. split; auto. apply Nat.eqb_refl.
  Qed.

  (** Number of dominators of [y] that are not in [P]. *)
  Definition left_count (P : list nat) (y : nat) : Z :=
    Z.of_nat (length (filter (fun x => negb (existsb (Nat.eqb x) P)) (dominators y))).

  Lemma process_front_flat F counts :
    process_front dom set_iter inds F counts =
    fold_left decrement (flat_map (fun x => set_iter x (dominated_by dom inds x)) F) (counts, []).
  Proof.
    unfold process_front. generalize (counts, @nil nat) as st.
    induction F as [|a F IH]; intros st; [reflexivity|].
    cbn [fold_left flat_map]. rewrite IH. rewrite fold_left_app. reflexivity.
  Qed.

  Lemma occ_perm l l' y : Permutation l l' -> occ l y = occ l' y.
  Proof.
    intros H. unfold occ. f_equal. now apply Permutation_count_occ.
  Qed.

  Lemma occ_nodup l y : NoDup l -> occ l y = if existsb (Nat.eqb y) l then 1%Z else 0%Z.
  Proof.
    intros H. unfold occ. destruct (existsb (Nat.eqb y) l) eqn:E.
    - apply existsb_exists in E. destruct E as (z & Hz & E). apply Nat.eqb_eq in E. subst z.
      pose proof (proj1 (NoDup_count_occ Nat.eq_dec l) H y).
      pose proof (proj1 (count_occ_In Nat.eq_dec l y) Hz). lia.
    - assert (~ In y l).
      { intros Hy. assert (existsb (Nat.eqb y) l = true); [|congruence].
        apply existsb_exists. exists y. split; auto. apply Nat.eqb_refl. }
      rewrite (proj1 (count_occ_not_In Nat.eq_dec l y)) by auto. reflexivity.
  Qed.

  Lemma existsb_eqb x l : existsb (Nat.eqb x) l = true <-> In x l.
  Proof.
    rewrite existsb_exists. split.
    - intros (z & Hz & E). apply Nat.eqb_eq in E. now subst.
    - intros H. exists x. split; auto. apply Nat.eqb_refl.
  Qed.

  Lemma occ_targets F y : In y inds ->
    occ (flat_map (fun x => set_iter x (dominated_by dom inds x)) F) y =
    Z.of_nat (length (filter (fun x => dom x y) F)).
  Proof.
    intros Hy. induction F as [|a F IH]; [reflexivity|].
    cbn [flat_map filter]. rewrite occ_app, IH, (occ_perm _ _ y (iter_perm _ _)), dominated_by_eq.
    rewrite occ_nodup by now apply NoDup_filter.
    destruct (dom a y) eqn:E.
    - replace (existsb (Nat.eqb y) (filter (dom a) inds)) with true; [cbn [length]; lia|].
      symmetry. apply existsb_eqb, filter_In. auto.
    - destruct (existsb (Nat.eqb y) (filter (dom a) inds)) eqn:E2; [|lia].
      apply existsb_eqb, filter_In in E2. destruct E2. congruence.
  Qed.

  Lemma occ_targets_out F y : ~ In y inds ->
    occ (flat_map (fun x => set_iter x (dominated_by dom inds x)) F) y = 0%Z.
  Proof.
    intros Hy. induction F as [|a F IH]; [reflexivity|].
    cbn [flat_map]. rewrite occ_app, IH, (occ_perm _ _ y (iter_perm _ _)), dominated_by_eq.
    unfold occ. rewrite (proj1 (count_occ_not_In Nat.eq_dec _ y)); [reflexivity|].
    intros H. apply filter_In in H. tauto.
  Qed.

  (** Removing a front from the remaining dominators. *)
  Lemma left_count_front P F y :
    NoDup F -> incl F inds -> (forall x, In x F -> ~ In x P) ->
    (left_count P y - Z.of_nat (length (filter (fun x => dom x y) F)) = left_count (P ++ F) y)%Z.
  Proof.
    intros HF HI HD. unfold left_count.
    assert (E : Permutation (filter (fun x => negb (existsb (Nat.eqb x) P)) (dominators y))
              (filter (fun x => negb (existsb (Nat.eqb x) (P ++ F))) (dominators y)
               ++ filter (fun x => dom x y) F)).
    { apply NoDup_Permutation.
      - apply NoDup_filter, NoDup_filter; auto.
      - apply NoDup_app_disj; [apply NoDup_filter, NoDup_filter; auto|apply NoDup_filter; auto|].
        intros x Hx HxF. apply filter_In in Hx. apply filter_In in HxF.
        destruct Hx as [_ Hx]. apply negb_true_iff in Hx.
        assert (existsb (Nat.eqb x) (P ++ F) = true); [|congruence].
        apply existsb_eqb, in_or_app. tauto.
      - intros x. rewrite in_app_iff, !filter_In. unfold dominators. rewrite filter_In.
        rewrite !negb_true_iff, <- !not_true_iff_false, !existsb_eqb, in_app_iff.
        destruct (in_dec Nat.eq_dec x F) as [i|n].
        + specialize (HI x i). specialize (HD x i). tauto.
        + tauto. }
    apply Permutation_length in E. rewrite app_length in E. lia.
  Qed.

  (** Peeling: each front is exactly the set of remaining individuals that no remaining
      individual dominates. *)
  Inductive peeling (P : list nat) : list (list nat) -> Prop :=
  | peel_nil : (forall x, In x inds -> In x P) -> peeling P []
  | peel_cons F fs :
      F <> [] -> NoDup F ->
      (forall x, In x F <->
         In x inds /\ ~ In x P /\ forall y, In y inds -> ~ In y P -> dom y x = false) ->
      peeling (P ++ F) fs -> peeling P (F :: fs).

  Lemma left_count_zero P y :
    left_count P y = 0%Z <-> forall x, In x inds -> ~ In x P -> dom x y = false.
  Proof.
    unfold left_count. split.
    - intros H x Hx HP. destruct (dom x y) eqn:E; auto.
      assert (Hin : In x (filter (fun x => negb (existsb (Nat.eqb x) P)) (dominators y))).
      { apply filter_In. split; [apply filter_In; auto|].
        apply negb_true_iff, not_true_iff_false. now rewrite existsb_eqb. }
      destruct (filter (fun x0 => negb (existsb (Nat.eqb x0) P)) (dominators y)); [destruct Hin|].
      simpl in H. lia.
    - intros H. rewrite filter_none; [reflexivity|].
      intros x Hx. apply filter_In in Hx. destruct Hx as [Hx Hd].
      apply negb_false_iff, existsb_eqb. destruct (in_dec Nat.eq_dec x P); auto.
      specialize (H x Hx n). congruence.
  Qed.

  (** A finite strict order has a minimal element in every non-empty subset. *)
  Lemma minimal_exists (l : list nat) : l <> [] -> incl l inds ->
    exists x, In x l /\ forall y, In y l -> dom y x = false.
  Proof.
    induction l as [|a l IH]; [congruence|]. intros _ HI.
    destruct l as [|b l'].
    - exists a. split; [now left|]. intros y [<-|[]]. apply dom_irrefl, HI. now left.
    - destruct IH as (x & Hx & Hmin); [discriminate|intros z Hz; apply HI; now right|].
      assert (HxI : In x inds) by (apply HI; now right).
      assert (HaI : In a inds) by (apply HI; now left).
      destruct (dom a x) eqn:E.
      + exists a. split; [now left|]. intros y [<-|Hy]; [now apply dom_irrefl|].
        destruct (dom y a) eqn:E2; auto.
        rewrite <- (Hmin y Hy). symmetry. apply dom_trans with a; auto. apply HI; now right.
      + exists x. split; [now right|]. intros y [<-|Hy]; auto.
  Qed.

  Lemma fronts_loop_peels fuel :
    forall P F counts,
      NoDup P -> incl P inds -> NoDup F ->
      (forall x, In x F <->
         In x inds /\ ~ In x P /\ forall y, In y inds -> ~ In y P -> dom y x = false) ->
      (forall y, In y inds -> ~ In y P -> counts y = left_count P y) ->
      (forall y, In y P -> (counts y <= 0)%Z) ->
      length inds <= fuel + length P ->
      exists fs, fronts_loop dom set_iter fuel inds F counts = Some fs /\ peeling P fs.
  Proof.
    induction fuel as [|fuel IH]; intros P F counts HP HPi HF HFs Hc HcP Hfuel.
    - assert (HFe : F = []).
      { destruct F as [|a F]; auto. exfalso.
        assert (Ha : In a (a :: F)) by now left.
        apply HFs in Ha. destruct Ha as (Ha & HaP & _).
        assert (HND : NoDup (a :: P)) by now constructor.
        assert (HL : length (a :: P) <= length inds).
        { apply NoDup_incl_length; auto. intros z [<-|Hz]; auto. }
        simpl in HL. lia. }
      subst F. exists []. split; [reflexivity|]. constructor. intros x Hx.
      destruct (in_dec Nat.eq_dec x P) as [|n]; auto. exfalso.
      assert (HND : NoDup (x :: P)) by now constructor.
      assert (HL : length (x :: P) <= length inds).
      { apply NoDup_incl_length; auto. intros z [<-|Hz]; auto. }
      simpl in HL. lia.
    - destruct F as [|a F].
      + exists []. split; [reflexivity|]. constructor.
        set (rest := filter (fun x => negb (existsb (Nat.eqb x) P)) inds).
        destruct rest as [|r0 rest'] eqn:Er.
        * intros x Hx. destruct (in_dec Nat.eq_dec x P) as [|n]; auto. exfalso.
          assert (In x rest) as Hin.
          { apply filter_In. split; auto. apply negb_true_iff, not_true_iff_false.
            now rewrite existsb_eqb. }
          rewrite Er in Hin. destruct Hin.
        * exfalso. destruct (minimal_exists rest) as (x & Hx & Hmin).
          { rewrite Er. discriminate. }
          { intros z Hz. apply filter_In in Hz. tauto. }
          apply filter_In in Hx. destruct Hx as [Hx HxP].
          apply negb_true_iff in HxP. rewrite <- not_true_iff_false, existsb_eqb in HxP.
          apply (in_nil (a := x)). apply HFs. split; [auto|split; [auto|]].
          intros y Hy HyP. apply Hmin. apply filter_In. split; auto.
          apply negb_true_iff, not_true_iff_false. now rewrite existsb_eqb.
      + set (F0 := a :: F) in *.
        assert (HFi : incl F0 inds) by (intros z Hz; apply HFs in Hz; tauto).
        assert (HFP : forall x, In x F0 -> ~ In x P) by (intros z Hz; apply HFs in Hz; tauto).
        cbn [fronts_loop]. fold F0. unfold F0 at 1. cbn match.
        rewrite process_front_flat.
        pose proof (decrement_run (flat_map (fun x => set_iter x (dominated_by dom inds x)) F0)
                      counts [] (NoDup_nil _) (fun y (H : In y []) => match H with end)) as HR.
        destruct (fold_left decrement
                    (flat_map (fun x => set_iter x (dominated_by dom inds x)) F0) (counts, []))
          as [counts' next'].
        destruct HR as (RA & RB & RC).
        assert (HPF : NoDup (P ++ F0)).
        { apply NoDup_app_disj; auto. intros z Hz HzF. exact (HFP z HzF Hz). }
        assert (HcF : forall y, In y inds -> ~ In y P -> counts' y = left_count (P ++ F0) y).
        { intros y Hy HyP. rewrite RA, occ_targets, Hc by auto.
          now apply left_count_front. }
        destruct (IH (P ++ F0) next' counts') as (fs & Hfs & Hpeel); auto.
        * intros z Hz. apply in_app_or in Hz. destruct Hz; auto.
        * intros y. rewrite RC. split.
          -- intros [[]|Hy].
             assert (HyI : In y inds).
             { destruct (in_dec Nat.eq_dec y inds) as [|n]; auto.
               rewrite (occ_targets_out F0 y n) in Hy. lia. }
             assert (HyP : ~ In y P) by (intros H; specialize (HcP y H); lia).
             assert (HyF : ~ In y F0).
             { intros H. apply HFs in H. destruct H as (_ & _ & H).
               rewrite Hc in Hy by auto. apply left_count_zero in H. lia. }
             split; [auto|]. split; [rewrite in_app_iff; tauto|].
             rewrite <- left_count_zero, <- HcF by auto.
             pose proof (HcF y HyI HyP) as HE. rewrite RA in *.
             assert (0 <= left_count (P ++ F0) y)%Z by (unfold left_count; lia). lia.
          -- intros (HyI & HyPF & Hmin). right. rewrite in_app_iff in HyPF.
             apply left_count_zero in Hmin.
             rewrite <- HcF in Hmin by tauto. rewrite RA in Hmin.
             assert (left_count P y <> 0%Z).
             { intros H0. apply HyPF. right. apply HFs. split; [auto|split; [tauto|]].
               now apply left_count_zero. }
             assert (0 <= left_count P y)%Z by (unfold left_count; lia).
             rewrite Hc in * by tauto. lia.
        * intros y Hy HyPF. apply HcF; auto. rewrite in_app_iff in HyPF. tauto.
        * intros y Hy. rewrite RA.
          pose proof (occ_nonneg (flat_map (fun x => set_iter x (dominated_by dom inds x)) F0) y).
          apply in_app_or in Hy. destruct Hy as [Hy|Hy].
          -- specialize (HcP y Hy). lia.
          -- pose proof (proj1 (HFs y) Hy) as (HyI & HyP & Hmin).
             rewrite Hc by auto. apply left_count_zero in Hmin. lia.
        * rewrite app_length. unfold F0. simpl. lia.
        * rewrite Hfs. exists (F0 :: fs). split; [reflexivity|].
          constructor; auto. unfold F0. discriminate.
  Qed.

  Theorem nd_sort_gen_peels :
    exists fs, nd_sort_gen dom set_iter inds = Some fs /\ peeling [] fs.
  Proof.
    unfold nd_sort_gen. apply fronts_loop_peels; auto.
    - constructor.
    - intros z [].
    - now apply NoDup_filter.
    - intros x. unfold first_front. rewrite filter_In. split.
      + intros [Hx H]. apply Z.eqb_eq in H. rewrite count_eq in H by auto.
        split; [auto|split; [auto|]]. apply left_count_zero. unfold left_count.
        rewrite filter_all; auto.
      + intros (Hx & _ & H). split; auto. apply Z.eqb_eq. rewrite count_eq by auto.
        apply left_count_zero in H. unfold left_count in H. rewrite filter_all in H; auto.
    - intros y Hy _. rewrite initial_counts_eq by auto. unfold left_count.
      rewrite filter_all; auto.
    - intros y [].
    - simpl. lia.
  Qed.

  (** Reading a peeling back as positional facts. *)
  Lemma peeling_perm fs : forall P, NoDup P -> incl P inds -> peeling P fs ->
    Permutation (P ++ concat fs) inds.
  Proof.
    induction fs as [|F fs IH]; intros P HP HI Hp; inversion Hp; subst.
    - simpl. rewrite app_nil_r. apply NoDup_Permutation; auto.
      intros x. split; auto.
    - cbn [concat]. rewrite app_assoc. apply IH; auto.
      + apply NoDup_app_disj; auto. intros z Hz HzF. apply H3 in HzF. tauto.
      + intros z Hz. apply in_app_or in Hz. destruct Hz as [Hz|Hz]; auto. apply H3 in Hz. tauto.
  Qed.

  Lemma peeling_nonempty fs : forall P, peeling P fs -> Forall (fun f => f <> []) fs.
  Proof.
    induction fs as [|F fs IH]; intros P Hp; constructor; inversion Hp; subst; eauto.
  Qed.

  Lemma peeling_nth fs : forall P k F, peeling P fs -> nth_error fs k = Some F ->
    forall x, In x F <->
      In x inds /\ ~ In x (P ++ concat (firstn k fs)) /\
      forall y, In y inds -> ~ In y (P ++ concat (firstn k fs)) -> dom y x = false.
  Proof.
    induction fs as [|G fs IH]; intros P k F Hp Hn; [destruct k; discriminate|].
    inversion Hp; subst. destruct k as [|k]; simpl in Hn.
    - injection Hn as ->. cbn [firstn concat]. rewrite app_nil_r. auto.
    - cbn [firstn concat]. rewrite app_assoc. eapply IH; eauto.
  Qed.
End CountingProofs.

(** Instances. *)
Lemma nd_sort_positional (dom : nat -> nat -> bool) (R : nat -> nat -> Prop)
      (set_iter : nat -> list nat -> list nat) (inds : list nat) :
  (forall x l, Permutation (set_iter x l) l) -> NoDup inds ->
  (forall x y, In x inds -> In y inds -> (dom x y = true <-> R x y)) ->
  (forall x, ~ R x x) -> (forall x y z, R x y -> R y z -> R x z) ->
  exists fs,
    nd_sort_gen dom set_iter inds = Some fs /\
    Permutation (concat fs) inds /\
    Forall (fun f => f <> []) fs /\
    (forall k front x, nth_error fs k = Some front ->
       (In x front <->
        In x inds /\ ~ In x (concat (firstn k fs)) /\
        (forall y, In y inds -> ~ In y (concat (firstn k fs)) -> ~ R y x))).
Proof.
  intros Hit Hnd Hdom Hirr Htr.
  assert (H1 : forall x, In x inds -> dom x x = false).
  { intros x Hx. apply not_true_iff_false. rewrite Hdom by auto. apply Hirr. }
  assert (H2 : forall x y z, In x inds -> In y inds -> In z inds ->
    dom x y = true -> dom y z = true -> dom x z = true).
  { intros x y z Hx Hy Hz. rewrite !Hdom by auto. apply Htr. }
  destruct (nd_sort_gen_peels dom set_iter inds Hit Hnd H1 H2) as (fs & Hfs & Hp).
  exists fs. split; [auto|]. split; [|split].
  - apply (peeling_perm dom inds Hnd fs [] (NoDup_nil _)); auto. intros z [].
  - eapply peeling_nonempty; eauto.
  - intros k front x Hk.
    rewrite (peeling_nth dom inds fs [] k front Hp Hk x). cbn [app].
    split; intros (Ha & Hb & Hc); split; auto; split; auto; intros y Hy Hn.
    + rewrite <- Hdom by auto. rewrite Hc by auto. discriminate.
    + apply not_true_iff_false. rewrite Hdom by auto. auto.
Qed.

Definition is_peeling_of (obj : nat -> vec) (inds : list nat) (fs : list (list nat)) : Prop :=
  Permutation (concat fs) inds /\
  Forall (fun f => f <> []) fs /\
  (forall k front x, nth_error fs k = Some front ->
     (In x front <->
      In x inds /\ ~ In x (concat (firstn k fs)) /\
      (forall y, In y inds -> ~ In y (concat (firstn k fs)) -> ~ pareto_dom (obj y) (obj x)))).

Lemma smsemoa_nd_sort_ok obj d set_iter inds :
  (forall x l, Permutation (set_iter x l) l) -> NoDup inds -> all_dim d obj inds ->
  exists fs, smsemoa_nd_sort obj set_iter inds = Some fs /\ is_peeling_of obj inds fs.
Proof.
  intros Hit Hnd Hd. unfold smsemoa_nd_sort, is_peeling_of.
  apply (nd_sort_positional _ (fun x y => pareto_dom (obj x) (obj y))); auto.
  - intros x y Hx Hy. apply dominates_spec. rewrite !Hd; auto.
  - intros x. apply pareto_dom_irrefl.
  - intros x y z. apply pareto_dom_trans.
Qed.

Lemma nsgaii_nd_sort_ok obj d set_iter inds :
  (forall x l, Permutation (set_iter x l) l) -> NoDup inds -> all_dim d obj inds ->
  exists fs, nsgaii_nd_sort obj set_iter inds = Some fs /\ is_peeling_of obj inds fs.
Proof.
  intros Hit Hnd Hd. unfold nsgaii_nd_sort, is_peeling_of.
  apply (nd_sort_positional _ (fun x y => pareto_dom (obj x) (obj y))); auto.
  - intros x y Hx Hy. rewrite <- dominates_nsga. apply dominates_spec. rewrite !Hd; auto.
  - intros x. apply pareto_dom_irrefl.
  - intros x y z. apply pareto_dom_trans.
Qed.

(** front_number *)
Lemma front_number_from_spec fs : forall k x,
  NoDup (concat fs) ->
  forall i f, nth_error fs i = Some f -> In x f -> front_number_from k fs x = k + i.
Proof.
  induction fs as [|g fs IH]; intros k x Hnd i f Hi Hx; [destruct i; discriminate|].
  cbn [concat] in Hnd. simpl. destruct i as [|i]; simpl in Hi.
  - injection Hi as ->. replace (existsb (Nat.eqb x) f) with true; [lia|].
    symmetry. apply existsb_exists. exists x. split; auto. apply Nat.eqb_refl.
  - destruct (existsb (Nat.eqb x) g) eqn:E.
    + exfalso. apply existsb_exists in E. destruct E as (z & Hz & E). apply Nat.eqb_eq in E. subst z.
      apply nth_error_In in Hi.
      assert (Hc : In x (concat fs)) by (apply in_concat; eauto).
      revert Hnd Hz Hc. clear. induction g as [|a g IHg]; intros Hnd Hz Hc; [destruct Hz|].
      simpl in Hnd. inversion Hnd; subst. destruct Hz as [->|Hz]; [|auto].
      apply H1. apply in_or_app. auto.
    + rewrite (IH (S k) x) with (i := i) (f := f); auto; [lia|].
      clear -Hnd. induction g; auto. inversion Hnd; auto.
Qed.

Lemma peeling_disjoint (R : nat -> nat -> Prop) inds fs :
  (forall k front x, nth_error fs k = Some front ->
     (In x front <-> In x inds /\ ~ In x (concat (firstn k fs)) /\
        (forall y, In y inds -> ~ In y (concat (firstn k fs)) -> ~ R y x))) ->
  Permutation (concat fs) inds ->
  forall k front x y, nth_error fs k = Some front -> In x front -> In y inds -> R y x ->
    In y (concat (firstn k fs)).
Proof.
  intros Hf Hp k front x y Hk Hx Hy HR.
  destruct (in_dec Nat.eq_dec y (concat (firstn k fs))) as [|n]; auto.
  apply (Hf k front x Hk) in Hx. destruct Hx as (_ & _ & Hx). exfalso. eapply Hx; eauto.
Qed.

Lemma in_concat_firstn {A} (fs : list (list A)) k x :
  In x (concat (firstn k fs)) <-> exists j f, j < k /\ nth_error fs j = Some f /\ In x f.
Proof.
  revert fs. induction k as [|k IH]; intros fs.
  - simpl. split; [tauto|]. intros (j & f & H & _). lia.
  - destruct fs as [|g fs].
    + simpl. split; [tauto|]. intros (j & f & _ & H & _). destruct j; discriminate.
    + cbn [firstn concat]. rewrite in_app_iff, IH. split.
      * intros [H|(j & f & Hj & Hn & Hx)].
        -- exists 0, g. repeat split; auto. lia.
        -- exists (S j), f. repeat split; auto. lia.
      * intros (j & f & Hj & Hn & Hx). destruct j as [|j].
        -- injection Hn as ->. auto.
        -- right. exists j, f. repeat split; auto. lia.
Qed.

(** ---- theta sorting ---- *)
Definition smaller_thetas (cluster : nat -> nat) (theta : nat -> Z) (inds : list nat) (x : nat)
  : list Z :=
  nodup Z.eq_dec
    (map theta (filter (fun y => (cluster y =? cluster x) && (theta y <? theta x)%Z) inds)).

Lemma nodup_same_set {A} (dec : forall a b : A, {a = b} + {a <> b}) l l' :
  (forall x, In x l <-> In x l') -> length (nodup dec l) = length (nodup dec l').
Proof.
  intros H. apply Permutation_length, NoDup_Permutation; try apply NoDup_nodup.
  intros x. rewrite !nodup_In. apply H.
Qed.

Lemma theta_sort_ranks cluster theta set_iter inds :
  (forall x l, Permutation (set_iter x l) l) -> NoDup inds ->
  exists fs,
    theta_nd_sort cluster theta set_iter inds = Some fs /\
    Permutation (concat fs) inds /\
    Forall (fun f => f <> []) fs /\
    (forall k front x, nth_error fs k = Some front ->
       (In x front <-> In x inds /\ k = length (smaller_thetas cluster theta inds x))).
Proof.
  intros Hit Hnd.
  destruct (nd_sort_positional (theta_dominates cluster theta)
              (fun x y => cluster x = cluster y /\ (theta x < theta y)%Z) set_iter inds)
    as (fs & Hfs & Hp & Hne & Hpos); auto.
  { intros x y _ _. unfold theta_dominates. rewrite andb_true_iff, Nat.eqb_eq, Z.ltb_lt. tauto. }
  { intros x. lia. }
  { intros x y z [H1 H2] [H3 H4]. split; [congruence|lia]. }
  assert (Hin : forall k front x, nth_error fs k = Some front -> In x front -> In x inds).
  { intros k front x Hk Hx. eapply Permutation_in; [exact Hp|]. apply in_concat.
    exists front. split; auto. eapply nth_error_In; eauto. }
  assert (Hrank : forall k front x, nth_error fs k = Some front -> In x front ->
                    k = length (smaller_thetas cluster theta inds x)).
  { induction k as [|k IH]; intros front x Hk Hx.
    - apply (Hpos 0 front x Hk) in Hx. destruct Hx as (Hx & _ & Hmin).
      unfold smaller_thetas. rewrite filter_none; [reflexivity|].
      intros y Hy. apply not_true_iff_false. rewrite andb_true_iff, Nat.eqb_eq, Z.ltb_lt.
      intros [E L]. apply (Hmin y Hy); auto.
    - assert (Hprev : exists y g, nth_error fs k = Some g /\ In y g /\
                cluster y = cluster x /\ (theta y < theta x)%Z).
      { pose proof Hx as Hx'. apply (Hpos _ _ _ Hk) in Hx'. destruct Hx' as (HxI & HxN & Hmin).
        destruct (nth_error fs k) as [g|] eqn:Eg.
        2: { apply nth_error_None in Eg. assert (nth_error fs (S k) <> None) by congruence.
             apply nth_error_Some in H. lia. }
        destruct (existsb (fun y => (cluster y =? cluster x) && (theta y <? theta x)%Z) g) eqn:Ex.
        { apply existsb_exists in Ex. destruct Ex as (y & Hy & Ey).
          rewrite andb_true_iff, Nat.eqb_eq, Z.ltb_lt in Ey. exists y, g. tauto. }
        exfalso. apply HxN. apply in_concat_firstn. exists k, g. split; [lia|]. split; auto.
        apply (Hpos k g x Eg). split; [auto|]. split.
        { intros H. apply HxN. apply in_concat_firstn in H. destruct H as (j & f & Hj & Hn & Hf).
          apply in_concat_firstn. exists j, f. repeat split; auto. }
        intros y Hy HyN [E L].
        destruct (in_dec Nat.eq_dec y (concat (firstn (S k) fs))) as [i|n].
        - apply in_concat_firstn in i. destruct i as (j & f & Hj & Hn & Hf).
          destruct (Nat.eq_dec j k) as [->|Hjk].
          + rewrite Eg in Hn. injection Hn as <-.
            assert (existsb (fun y => (cluster y =? cluster x) && (theta y <? theta x)%Z) g = true);
              [|congruence].
            apply existsb_exists. exists y. split; auto.
            rewrite andb_true_iff, Nat.eqb_eq, Z.ltb_lt. auto.
          + apply HyN. apply in_concat_firstn. exists j, f. repeat split; auto. lia.
        - exact (Hmin y Hy n (conj E L)). }
      destruct Hprev as (y & g & Hg & Hy & Ec & Lt).
      rewrite (IH g y Hg Hy) at 1.
      assert (Hsmall : forall z, In z inds -> cluster z = cluster x -> (theta z < theta x)%Z ->
                        (theta z <= theta y)%Z).
      { intros z Hz Ez Lz.
        pose proof (peeling_disjoint (fun x y => cluster x = cluster y /\ (theta x < theta y)%Z)
                      inds fs Hpos Hp (S k) front x z Hk Hx Hz (conj Ez Lz)) as Hzin.
        destruct (Z_le_gt_dec (theta z) (theta y)) as [|G]; auto. exfalso.
        apply in_concat_firstn in Hzin. destruct Hzin as (j & f & Hj & Hn & Hf).
        assert (Hyd : In y (concat (firstn j fs))).
        { eapply (peeling_disjoint (fun x y => cluster x = cluster y /\ (theta x < theta y)%Z)
                    inds fs Hpos Hp j f z y); eauto. split; [congruence|lia]. }
        assert (Hyd' : In y (concat (firstn k fs))).
        { apply in_concat_firstn in Hyd. destruct Hyd as (j' & f' & Hj' & Hn' & Hf').
          apply in_concat_firstn. exists j', f'. repeat split; auto. lia. }
        apply (Hpos k g y Hg) in Hy. tauto. }
      unfold smaller_thetas.
      assert (HyI : In y inds) by (eapply Hin; eauto).
      transitivity (length (nodup Z.eq_dec
        (theta y :: nodup Z.eq_dec (map theta
           (filter (fun z => (cluster z =? cluster y) && (theta z <? theta y)%Z) inds))))).
      + assert (HN : ~ In (theta y) (nodup Z.eq_dec (map theta
           (filter (fun z => (cluster z =? cluster y) && (theta z <? theta y)%Z) inds)))).
        { intros H. apply nodup_In, in_map_iff in H. destruct H as (z & E & H).
          apply filter_In in H. rewrite andb_true_iff, Z.ltb_lt in H. lia. }
        match type of HN with ~ In _ ?q => set (L := q) in * end. cbn [nodup].
        destruct (in_dec Z.eq_dec (theta y) L) as [HC|_]; [contradiction|].
        cbn [length]. f_equal. rewrite (nodup_fixed_point Z.eq_dec (l := L)); [reflexivity|apply NoDup_nodup].
      + apply nodup_same_set. intros t. cbn [In]. rewrite nodup_In, !in_map_iff. split.
        * intros [<-|(z & <- & Hz)].
          -- exists y. split; auto. apply filter_In. split; auto.
             rewrite andb_true_iff, Nat.eqb_eq, Z.ltb_lt. auto.
          -- apply filter_In in Hz. destruct Hz as [Hz Ez].
             rewrite andb_true_iff, Nat.eqb_eq, Z.ltb_lt in Ez.
             exists z. split; auto. apply filter_In. split; auto.
             rewrite andb_true_iff, Nat.eqb_eq, Z.ltb_lt. destruct Ez; split; [congruence|lia].
        * intros (z & <- & Hz). apply filter_In in Hz. destruct Hz as [Hz Ez].
          rewrite andb_true_iff, Nat.eqb_eq, Z.ltb_lt in Ez. destruct Ez as [E1 L1].
          specialize (Hsmall z Hz E1 L1).
          destruct (Z.eq_dec (theta z) (theta y)) as [E|NE]; [left; auto|right].
          exists z. split; auto. apply filter_In. split; auto.
          rewrite andb_true_iff, Nat.eqb_eq, Z.ltb_lt. split; [congruence|lia]. }
  exists fs. split; [auto|]. split; [auto|]. split; [auto|].
  intros k front x Hk. split.
  - intros Hx. split; [eapply Hin; eauto|eapply Hrank; eauto].
  - intros [Hx Ek]. assert (Hc : In x (concat fs)).
    { eapply Permutation_in; [apply Permutation_sym; exact Hp|auto]. }
    apply in_concat in Hc. destruct Hc as (f & Hf & Hxf).
    apply In_nth_error in Hf. destruct Hf as (j & Hj).
    pose proof (Hrank j f x Hj Hxf) as Ej. assert (E : j = k) by congruence. rewrite E in Hj.
    rewrite Hk in Hj. now injection Hj as ->.
Qed.

Lemma nsgaii_front_number obj d set_iter inds fronts k front x :
  (forall x l, Permutation (set_iter x l) l) -> NoDup inds -> all_dim d obj inds ->
  nsgaii_nd_sort obj set_iter inds = Some fronts ->
  nth_error fronts k = Some front -> In x front ->
  front_number fronts x = S k.
Proof.
  intros Hit Hnd Hd Hs Hk Hx.
  destruct (nsgaii_nd_sort_ok obj d set_iter inds Hit Hnd Hd) as (fs & Hfs & Hp & _).
  rewrite Hs in Hfs. injection Hfs as <-.
  unfold front_number. rewrite (front_number_from_spec fronts 1 x) with (i := k) (f := front); auto.
  eapply Permutation_NoDup; [apply Permutation_sym; exact Hp|auto].
Qed.
