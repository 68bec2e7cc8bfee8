(** Proofs about whole IMGA runs. *)
From Verif Require Import Spec Base VarModel DomModel NsgaModel NsgaSpec NsgaProofs ImgaSpec ImgaModel ImgaProofs TorusProofs ImgaRunModel.
From Coq Require Import QArith.
Local Open Scope nat_scope.

Lemma fold_left_sum l a : fold_left Nat.add l a = a + list_sum l.
Proof. revert a. induction l as [|x l IH]; intros a; [cbn; lia|]. cbn [fold_left]. rewrite IH. change (list_sum (x :: l)) with (x + list_sum l). lia. Qed.
Lemma list_sum_perm l l' : Permutation l l' -> list_sum l = list_sum l'.
Proof.
  induction 1 as [|x l l' _ IH|x y l|l l' l'' _ IH1 _ IH2]; [reflexivity | | | congruence].
  - change (x + list_sum l = x + list_sum l'). lia.
  - change (y + (x + list_sum l) = x + (y + list_sum l)). lia.
Qed.
Lemma map_nth_seq (l : list nat) : map (fun k => nth k l 0) (seq 0 (length l)) = l.
Proof.
  apply nth_error_same. intros i. rewrite nth_error_map. destruct (Nat.lt_ge_cases i (length l)) as [H|H].
  - rewrite nth_seq by exact H. cbn. symmetry. now apply nth_error_nth'.
  - rewrite (proj2 (nth_error_None (seq 0 (length l)) i)) by (rewrite seq_length; exact H). symmetry. now apply nth_error_None.
Qed.
Lemma collect_length {A} : forall (l : list (option A)) r, collect l = Some r -> length r = length l.
Proof.
  induction l as [|[a|] l IH]; intros r H; cbn in H; [injection H as <-; reflexivity | | discriminate].
  destruct (collect l) as [q|]; [|discriminate]. injection H as <-. cbn. rewrite (IH q) by reflexivity. reflexivity.
Qed.
Lemma collect_Forall2 {A} : forall (l : list (option A)) r, collect l = Some r -> Forall2 (fun o a => o = Some a) l r.
Proof.
  induction l as [|[a|] l IH]; intros r H; cbn in H; [injection H as <-; constructor | | discriminate].
  destruct (collect l) as [q|]; [|discriminate]. injection H as <-. constructor; auto.
Qed.
Lemma collect_of_Forall2 {A} : forall (l : list (option A)) r, Forall2 (fun o a => o = Some a) l r -> collect l = Some r.
Proof. induction 1 as [|o a l r -> _ IH]; [reflexivity|]. cbn. rewrite IH. reflexivity. Qed.
Lemma send_all_length {ind} (value : ind -> vec) f draws : forall edges islands islands', send_all value f draws edges islands = Some islands' -> length islands' = length islands.
Proof.
  induction edges as [|(i, n) edges IH]; intros islands islands' H; cbn in H; [injection H as <-; reflexivity|].
  destruct (nth_error islands i) as [src|]; [|discriminate]. destruct (emigrate value f (draws i n) src) as [(mg, src')|]; [|discriminate].
  destruct (nth_error (set_nth i src' islands) n) as [dst|]; [|discriminate]. apply IH in H. rewrite !set_nth_length in H. exact H.
Qed.
Lemma assimilate_all_length {ind} (admit : ind -> ind) : forall l l', assimilate_all admit l = Some l' -> length l' = length l.
Proof.
  induction l as [|s l IH]; intros l' H; cbn in H; [injection H as <-; reflexivity|].
  destruct (assimilate admit s) as [s'|]; [|discriminate]. destruct (assimilate_all admit l) as [r|]; [|discriminate]. injection H as <-. cbn. rewrite (IH r) by reflexivity. reflexivity.
Qed.
Lemma migration_length {ind} (value : ind -> vec) admit f topo draws islands islands' : migration value admit f topo draws islands = Some islands' -> length islands' = length islands.
Proof.
  unfold migration. destruct (_ <? _); [discriminate|]. destruct (send_all _ _ _ _ _) as [is1|] eqn:E; [|discriminate].
  intros H. apply assimilate_all_length in H. apply send_all_length in E. congruence.
Qed.

Lemma Forall2_same_length {A B} (R : A -> B -> Prop) l l' : Forall2 R l l' -> length l = length l'.
Proof. induction 1; cbn; congruence. Qed.
Lemma Forall2_in_r {A B} (R : A -> B -> Prop) l l' y : Forall2 R l l' -> In y l' -> exists x, In x l /\ R x y.
Proof. induction 1 as [|a b l l' H _ IH]; intros []; [subst; exists a; split; [now left | assumption]|]. destruct IH as (z & ? & ?); [assumption|]. exists z. split; [now right | assumption]. Qed.

Section Cost.
  Variables drv draw ind : Type.
  Variable value : ind -> vec.
  Variable admit : ind -> ind.
  Variable dstep : draw -> drv -> option drv.
  Variable dcost : drv -> nat.
  Variable dinds : drv -> list ind.
  Variable dset : drv -> list ind -> drv.
  Variable f : vec -> vec.
  Hypothesis dset_cost : forall d l, dcost (dset d l) = dcost d.
  Notation go := (imga_step drv draw ind value admit dstep dcost dinds dset f).

  Lemma epoch_cost : forall draws s message s' c, epoch drv draw dstep dcost draws s message = Some (s', c) ->
    (message = None \/ message = Some (dcost s)) -> c = dcost s'.
  Proof.
    induction draws as [|d draws IH]; intros s message s' c H Hm; cbn in H.
    - destruct message as [c'|]; [|discriminate]. injection H as <- <-. destruct Hm as [Hm|Hm]; [discriminate|congruence].
    - destruct (dstep d s) as [s1|]; [|discriminate]. eapply IH; [exact H | now right].
  Qed.
  Lemma epoch_mono : (forall d s s', dstep d s = Some s' -> dcost s <= dcost s') ->
    forall draws s message s' c, epoch drv draw dstep dcost draws s message = Some (s', c) -> dcost s <= dcost s'.
  Proof.
    intros Hm. induction draws as [|d draws IH]; intros s message s' c H; cbn in H.
    - destruct message; [|discriminate]. injection H as <- _. lia.
    - destruct (dstep d s) as [s1|] eqn:E; [|discriminate]. apply Hm in E. apply IH in H. lia.
  Qed.

  Lemma step_cost D s s' : go D s = Some s' -> Permutation (completion D) (seq 0 (length (imga_drivers s))) ->
    imga_cost s' = list_sum (map dcost (imga_drivers s')) /\ length (imga_drivers s') = length (imga_drivers s).
  Proof.
    intros H HP. unfold imga_step in H.
    match type of H with context [collect ?x] => destruct (collect x) as [results|] eqn:Ec; [|discriminate] end.
    destruct (migration _ _ f _ _ _) as [islands|] eqn:Em; [|discriminate]. injection H as <-. cbn [imga_cost imga_drivers].
    assert (Lr : length results = length (imga_drivers s)).
    { rewrite (collect_length _ _ Ec), map_length, combine_length, seq_length. lia. }
    assert (Li : length islands = length results) by (rewrite (migration_length _ _ _ _ _ _ _ Em), map_length; reflexivity).
    split; [|rewrite map_length, combine_length; lia].
    rewrite fold_left_sum, Nat.add_0_l.
    transitivity (list_sum (map snd results)).
    - transitivity (list_sum (map (fun k => nth k (map snd results) 0) (seq 0 (length (map snd results))))).
      + apply list_sum_perm. apply Permutation_map. rewrite map_length, Lr. exact HP.
      + rewrite map_nth_seq. reflexivity.
    - f_equal. rewrite map_map.
      assert (Msg : Forall (fun r => snd r = dcost (fst r)) results).
      { apply collect_Forall2 in Ec. apply Forall_forall. intros (d, c) Hin. destruct (Forall2_in_r _ _ _ _ Ec Hin) as (o & Ho & Eo).
        apply in_map_iff in Ho. destruct Ho as ((k, d0) & E & _). cbn [fst snd] in *. rewrite Eo in E. apply (epoch_cost _ _ _ _ _ E). now left. }
      clear -Msg Li dset_cost. revert islands Li. induction Msg as [|r results Hr Msg IH]; intros [|is islands] Li; try discriminate; [reflexivity|].
      cbn [map combine fst snd]. rewrite dset_cost, <- Hr. f_equal. apply IH. cbn in Li. lia.
  Qed.

  Lemma step_order D D' s : in_epoch D = in_epoch D' -> in_migration D = in_migration D' -> Permutation (completion D) (completion D') -> go D s = go D' s.
  Proof.
    intros E1 E2 HP. unfold imga_step. rewrite E1, E2. destruct (collect _) as [results|]; [|reflexivity]. destruct (migration _ _ _ _ _ _); [|reflexivity].
    f_equal. f_equal. rewrite !fold_left_sum. f_equal. apply list_sum_perm. now apply Permutation_map.
  Qed.

  Lemma step_mono D s s' : (forall d x x', dstep d x = Some x' -> dcost x <= dcost x') -> go D s = Some s' ->
    list_sum (map dcost (imga_drivers s)) <= list_sum (map dcost (imga_drivers s')).
  Proof.
    intros Hm H. unfold imga_step in H.
    match type of H with context [collect ?x] => destruct (collect x) as [results|] eqn:Ec; [|discriminate] end.
    destruct (migration _ _ f _ _ _) as [islands|] eqn:Em; [|discriminate]. injection H as <-. cbn [imga_drivers].
    assert (Li : length islands = length results) by (rewrite (migration_length _ _ _ _ _ _ _ Em), map_length; reflexivity).
    apply collect_Forall2 in Ec. clear Em. revert Ec Li. generalize (imga_drivers s). intros l. generalize 0 as base. revert results islands.
    induction l as [|d l IH]; intros results islands base Ec Li; cbn [length seq combine map] in Ec |- *; [cbn; lia|].
    inversion Ec as [|o r ol rl Eo Erest]; subst. destruct islands as [|is islands]; [discriminate|]. destruct r as [d' c]. cbn [fst snd] in Eo. apply (epoch_mono Hm) in Eo.
    cbn [map combine fst snd]. change (list_sum (?a :: ?b)) with (a + list_sum b). rewrite dset_cost.
    cbn in Li. specialize (IH rl islands (S base) Erest ltac:(lia)).
    change (dcost d + list_sum (map dcost l) <= dcost d' + list_sum (map dcost (map (fun ri => dset (fst (fst ri)) (isl_inds (snd ri))) (combine rl islands)))). lia.
  Qed.

  Lemma steps_cost (Ds : list (imga_draws draw)) : forall s s', imga_steps drv draw ind value admit dstep dcost dinds dset f Ds s = Some s' ->
    Forall (fun D => Permutation (completion D) (seq 0 (length (imga_drivers s)))) Ds -> Ds <> [] ->
    imga_cost s' = list_sum (map dcost (imga_drivers s')).
  Proof.
    induction Ds as [|D Ds IH]; intros s s' H HF Ne; [congruence|]. cbn in H. destruct (go D s) as [s1|] eqn:E; [|discriminate].
    inversion HF; subst. destruct (step_cost D s s1 E) as (C1 & L1); [assumption|]. destruct Ds as [|D2 Ds]; [cbn in H; injection H as <-; exact C1|].
    eapply IH; [exact H | rewrite L1; assumption | discriminate].
  Qed.
  Lemma steps_mono (Ds : list (imga_draws draw)) : (forall d x x', dstep d x = Some x' -> dcost x <= dcost x') -> forall s s', imga_steps drv draw ind value admit dstep dcost dinds dset f Ds s = Some s' ->
    list_sum (map dcost (imga_drivers s)) <= list_sum (map dcost (imga_drivers s')).
  Proof.
    intros Hm. induction Ds as [|D Ds IH]; intros s s' H; cbn in H; [injection H as <-; lia|].
    destruct (go D s) as [s1|] eqn:E; [|discriminate]. apply (step_mono D s s1 Hm) in E. apply IH in H. lia.
  Qed.
End Cost.

Lemma same_sets_neighbour t topo i j : same_sets t topo -> (neighbour topo i j <-> neighbour t i j).
Proof.
  intros H. revert i. induction H as [|l s t topo (H1 & H2) _ IH]; intros i; [split; intros (x & E & _); destruct i; discriminate|].
  destruct i as [|i]; [|apply IH]. unfold neighbour. cbn. split; intros (x & E & Hx); injection E as <-; eexists; (split; [reflexivity | now apply H2]).
Qed.
Lemma same_sets_NoDup t topo : same_sets t topo -> Forall (@NoDup nat) topo.
Proof. induction 1 as [|l s t topo (H1 & _) _ IH]; constructor; assumption. Qed.
Lemma same_sets_valid n t topo : same_sets t topo -> valid_topology n t -> valid_topology n topo.
Proof.
  intros H (V1 & V2 & V3). split; [rewrite <- V1; symmetry; eapply Forall2_same_length; exact H|]. split.
  - intros i j. rewrite (same_sets_neighbour t topo) by exact H. apply V2.
  - intros i j. rewrite !(same_sets_neighbour t topo) by exact H. apply V3.
Qed.

(** ---- islands of any driver ---- *)
Section Islands.
  Variables drv draw ind : Type.
  Variable value : ind -> vec.
  Variable admit : ind -> ind.
  Variable dstep : draw -> drv -> option drv.
  Variable dcost : drv -> nat.
  Variable dinds : drv -> list ind.
  Variable dset : drv -> list ind -> drv.
  Variable dfinal : drv -> option (drv * list vec).
  Variable dinit : list vec -> option drv.
  Variable f : vec -> vec.
  Variable fm : nat.
  Hypothesis Hf : forall v, length (f v) = fm.
  Hypothesis dset_cost : forall d l, dcost (dset d l) = dcost d.
  Notation go := (imga_step drv draw ind value admit dstep dcost dinds dset f).
  Notation run := (imga_steps drv draw ind value admit dstep dcost dinds dset f).

  Variable topo : list (list nat).
  Hypothesis topo_sets : Forall (@NoDup nat) topo.
  Hypothesis topo_valid : valid_topology (length topo) topo.
  Variable m : nat.
  Variable E : nat.
  Hypothesis E_pos : 1 <= E.
  (** sizes of the sub-populations *)
  Variable sizes : list nat.
  Hypothesis sizes_length : length sizes = length topo.
  (** a driver made for N vectors, after T steps *)
  Variable iok : nat -> nat -> drv -> Prop.
  Variable mok : ind -> Prop.
  Hypothesis iok_step : forall T N x d, In N sizes -> iok T N d -> exists d', dstep x d = Some d' /\ iok (S T) N d'.
  Hypothesis iok_room : forall T N d k, nth_error sizes k = Some N -> 1 <= T -> iok T N d -> m * length (nth k topo []) <= length (dinds d).
  Hypothesis iok_members : forall T N d, iok T N d -> Forall mok (dinds d).
  Hypothesis admit_mok : forall x, mok x -> mok (admit x).
  Hypothesis iok_set : forall T N d l, In N sizes -> 1 <= T -> iok T N d -> Forall mok l -> length l = length (dinds d) -> iok T N (dset d l).

  Definition draws_fit (D : imga_draws draw) : Prop :=
    (forall k, length (in_epoch D k) = E) /\ Permutation (completion D) (seq 0 (length topo)) /\
    (forall i j, Forall draw_ok (in_migration D i j) /\ length (in_migration D i j) = m).

  Lemma epoch_ok N : In N sizes -> forall ds T d message, iok T N d -> ds <> [] \/ message = Some (dcost d) ->
    exists d', epoch drv draw dstep dcost ds d message = Some (d', dcost d') /\ iok (length ds + T) N d'.
  Proof.
    intros HN. induction ds as [|x ds IH]; intros T d message I H; cbn [epoch].
    - destruct H as [H| ->]; [congruence|]. exists d. auto.
    - destruct (iok_step T N x d HN I) as (d1 & -> & I1). destruct (IH (S T) d1 (Some (dcost d1)) I1) as (d' & E1 & I'); [now right|].
      exists d'. split; [exact E1|]. replace (length (x :: ds) + T) with (length ds + S T) by (cbn; lia). exact I'.
  Qed.

  Lemma epochs_ok T D : (forall k, length (in_epoch D k) = E) -> forall drivers szs base, Forall2 (iok T) szs drivers -> incl szs sizes ->
    exists results, collect (map (fun kd => epoch drv draw dstep dcost (in_epoch D (fst kd)) (snd kd) None) (combine (seq base (length drivers)) drivers)) = Some results /\
      Forall2 (fun N r => iok (E + T) N (fst r) /\ snd r = dcost (fst r)) szs results.
  Proof.
    intros HD. induction drivers as [|d drivers IH]; intros szs base HF Hp; inversion HF as [|N d0 szs0 l HN HF' E1 E2]; subst; [exists []; split; [reflexivity | constructor]|].
    cbn [length seq combine map fst snd]. destruct (epoch_ok N (Hp N (or_introl eq_refl)) (in_epoch D base) T d None HN) as (s' & Es & I').
    { left. intros X. specialize (HD base). rewrite X in HD. cbn in HD. lia. }
    rewrite HD in I'.
    destruct (IH szs0 (S base) HF') as (results & Er & HR); [intros x Hx; apply Hp; now right|]. exists ((s', dcost s') :: results). cbn [collect]. rewrite Es, Er. split; [reflexivity|]. constructor; auto.
  Qed.

  (** migration keeps the islands' invariants *)
  Lemma imga_step_ok T D s : draws_fit D -> imga_topology s = topo -> Forall2 (iok T) sizes (imga_drivers s) ->
    exists s', go D s = Some s' /\ imga_topology s' = topo /\ Forall2 (iok (E + T)) sizes (imga_drivers s') /\
      imga_cost s' = list_sum (map dcost (imga_drivers s')).
  Proof.
    intros (D1 & D2 & D3) Ht HI.
    destruct (epochs_ok T D D1 (imga_drivers s) sizes 0 HI (incl_refl _)) as (results & Er & HR).
    assert (Lr : length results = length topo) by (rewrite <- sizes_length; symmetry; eapply Forall2_same_length; exact HR).
    set (islands := map (fun r : drv * nat => {| isl_inds := dinds (fst r); visa_office := []; all_refugees := [] |}) results).
    assert (Li : length topo = length islands) by (unfold islands; rewrite map_length; auto).
    destruct (migration_balanced value admit f fm Hf m (in_migration D) D3 topo topo_sets islands Li) as (sent & kept & islands' & Em & Li' & _ & Each & stay & goes & Perm1 & Perm2).
    - destruct topo_valid as (_ & V2 & _). intros i j H. rewrite <- Li. eapply V2; exact H.
    - intros i is Hi. unfold islands in Hi. rewrite nth_error_map in Hi. destruct (nth_error results i) as [r|] eqn:Eri; [|discriminate]. cbn in Hi. injection Hi as <-. cbn.
      split; [reflexivity|]. split; [reflexivity|].
      assert (exists N, nth_error sizes i = Some N /\ iok (E + T) N (fst r)) as (N & EN & IN).
      { clear -HR Eri. revert i r Eri. induction HR as [|N r0 szs rs (H1 & _) _ IH]; intros i r Eri; [destruct i; discriminate|]. destruct i as [|i]; [cbn in Eri; injection Eri as <-; exists N; split; [reflexivity | exact H1] | apply IH; exact Eri]. }
      eapply iok_room; [exact EN | | exact IN]. lia.
    - intros k Hk. symmetry. apply Permutation_length. apply degrees; [exact topo_sets | exact topo_valid | rewrite Li; exact Hk].
    - unfold imga_step. rewrite Er. rewrite Ht. fold islands. rewrite Em. eexists. split; [reflexivity|]. cbn [imga_topology imga_drivers imga_cost].
      assert (Before : Forall mok (stay ++ goes)).
      { rewrite <- Perm1. apply Forall_forall. intros p Hp. apply in_concat in Hp. destruct Hp as (l & Hl & Hpl). apply in_map_iff in Hl. destruct Hl as (is0 & <- & His0).
        unfold islands in His0. apply in_map_iff in His0. destruct His0 as (r & <- & Hr). cbn in Hpl. destruct (Forall2_in_r _ _ _ _ HR Hr) as (N & _ & (I & _)).
        apply iok_members in I. rewrite Forall_forall in I. now apply I. }
      assert (Good : forall is, In is islands' -> Forall mok (isl_inds is)).
      { intros is His. apply Forall_forall. intros p Hp. assert (Hin : In p (concat (map isl_inds islands'))) by (apply in_concat; eexists; split; [apply in_map; exact His | exact Hp]).
        apply (Permutation_in _ Perm2) in Hin. apply Forall_app in Before. destruct Before as (B1 & B2). rewrite Forall_forall in B1, B2. apply in_app_or in Hin. destruct Hin as [Hin|Hin]; [auto|].
        apply in_map_iff in Hin. destruct Hin as (q & <- & Hq). auto. }
      assert (Len : Forall2 (fun r is => length (isl_inds is) = length (dinds (fst r))) results islands').
      { assert (Each' : forall k r, nth_error results k = Some r -> exists is, nth_error islands' k = Some is /\ length (isl_inds is) = length (dinds (fst r))).
        { intros k r Hk. destruct (Each k {| isl_inds := dinds (fst r); visa_office := []; all_refugees := [] |}) as (s' & H1 & _ & _ & H2 & _).
          - unfold islands. rewrite nth_error_map, Hk. reflexivity.
          - exists s'. split; [exact H1 | exact H2]. }
        assert (Ll : length islands' = length results) by (rewrite Li'; unfold islands; apply map_length).
        clear -Each' Ll. revert islands' Each' Ll. induction results as [|r results IH]; intros [|is islands'] Each' Ll; try discriminate; constructor.
        - destruct (Each' 0 r eq_refl) as (is0 & E0 & H0). cbn in E0. injection E0 as <-. exact H0.
        - apply IH; [intros k r' Hk; exact (Each' (S k) r' Hk) | cbn in Ll; lia]. }
      split; [reflexivity|]. split.
      + assert (G : forall szs, Forall2 (fun N r => iok (E + T) N (fst r) /\ snd r = dcost (fst r)) szs results -> incl szs sizes ->
          Forall2 (iok (E + T)) szs (map (fun ri => dset (fst (fst ri)) (isl_inds (snd ri))) (combine results islands'))).
        { clear -Len Good iok_set E_pos. induction Len as [|r is results islands' Hl Len IH]; intros szs HR Hsz; inversion HR as [|N r0 szs0 rs (I & _) HR' E1 E2]; subst; cbn [combine map fst snd]; constructor.
          - apply iok_set; [apply Hsz; now left | lia | exact I | apply Good; now left | exact Hl].
          - apply IH; [intros is0 H0; apply Good; now right | exact HR' | intros x Hx; apply Hsz; now right]. }
        apply G; [exact HR | apply incl_refl].
      + pose proof (step_cost drv draw ind value admit dstep dcost dinds dset f dset_cost D s) as SC.
        unfold imga_step in SC. rewrite Er, Ht in SC. fold islands in SC. rewrite Em in SC. specialize (SC _ eq_refl). cbn [imga_cost imga_drivers] in SC. apply SC.
        replace (length (imga_drivers s)) with (length topo); [exact D2|]. rewrite <- sizes_length. eapply Forall2_same_length; exact HI.
  Qed.

  Lemma imga_steps_ok Ds : Forall draws_fit Ds -> forall T s, imga_topology s = topo -> Forall2 (iok T) sizes (imga_drivers s) ->
    exists s', run Ds s = Some s' /\ imga_topology s' = topo /\ Forall2 (iok (length Ds * E + T)) sizes (imga_drivers s') /\
      (Ds <> [] -> imga_cost s' = list_sum (map dcost (imga_drivers s'))) /\ (Ds = [] -> s' = s).
  Proof.
    induction Ds as [|D Ds IH]; intros HF T s Ht HI; [exists s; split; [reflexivity|]; split; [exact Ht|]; split; [exact HI|]; split; [congruence | auto]|].
    inversion HF; subst. destruct (imga_step_ok T D s) as (s1 & Es & Ht1 & HI1 & C1); [assumption | assumption | assumption |].
    destruct (IH H2 (E + T) s1 Ht1 HI1) as (s' & Es' & Ht' & HI' & C' & N'). exists s'. cbn [imga_steps]. rewrite Es.
    split; [exact Es'|]. split; [exact Ht'|]. split; [replace (length (D :: Ds) * E + T) with (length Ds * E + (E + T)) by (cbn; lia); exact HI'|]. split; [|discriminate]. intros _.
    destruct Ds as [|D' Ds]; [|apply C'; discriminate]. rewrite (N' eq_refl). exact C1.
  Qed.

  Variable outok : nat -> list vec -> Prop.
  Lemma imga_final_ok T s : (forall N d, In N sizes -> iok T N d -> exists d' out, dfinal d = Some (d', out) /\ outok N out) ->
    Forall2 (iok T) sizes (imga_drivers s) ->
    exists outs, imga_final drv dfinal s = Some (concat outs) /\ Forall2 outok sizes outs.
  Proof.
    intros Fin. unfold imga_final. generalize (imga_drivers s). intros l H.
    assert (G : forall szs, Forall2 (iok T) szs l -> incl szs sizes -> exists outs, collect (map dfinal l) = Some outs /\ Forall2 outok szs (map snd outs)).
    { clear H. induction l as [|d l IH]; intros szs H Hi; inversion H as [|N d0 szs0 l0 I H' E1 E2]; subst; [exists []; split; [reflexivity | constructor]|].
      destruct (Fin N d (Hi N (or_introl eq_refl)) I) as (d' & out & Ed & Ho). destruct (IH szs0 H') as (outs & Eo & HO); [intros x Hx; apply Hi; now right|].
      exists ((d', out) :: outs). cbn [map collect]. rewrite Ed, Eo. split; [reflexivity|]. cbn. constructor; auto. }
    destruct (G sizes H (incl_refl _)) as (outs & -> & HO). exists (map snd outs). auto.
  Qed.
End Islands.

(** ---- IMGA on a torus ---- *)
Lemma torus_degree width n t topo k : 1 <= width -> torus width n = Some t -> same_sets t topo -> k < n -> length (nth k topo []) <= 4.
Proof.
  intros Hw Et HS Hk. destruct (torus_form width n Hw) as (t' & Et' & Lt & Full & Left). rewrite Et in Et'. injection Et' as <-.
  destruct (nth_error topo k) as [l|] eqn:El; [|rewrite (nth_overflow topo []) by (now apply nth_error_None); cbn; lia].
  rewrite (nth_error_nth _ _ [] El).
  assert (exists l0, nth_error t k = Some l0 /\ NoDup l /\ incl l l0) as (l0 & El0 & N1 & N2).
  { clear -HS El. revert k El. induction HS as [|a b t topo (H1 & H2) _ IH]; intros k El; [destruct k; discriminate|]. destruct k as [|k]; [|apply IH; exact El].
    cbn in El. injection El as <-. exists a. split; [reflexivity|]. split; [exact H1 | intros x; apply H2]. }
  assert (length l0 <= 4).
  { destruct (placed_of width n k Hw Hk) as ((Hc & Hr) & Ek). rewrite Ek in El0. destruct Hr as [Hr|(Er & Hc')].
    - rewrite Full in El0 by assumption. injection El0 as <-. unfold ent. rewrite app_length. destruct (joined _ _ _); [|cbn; lia]. destruct (_ =? 1); [cbn; lia|]. destruct (_ =? _); [cbn; lia|]. destruct (_ =? 0); cbn; lia.
    - rewrite Er, Left in El0 by assumption. injection El0 as <-. unfold lft_final, lft. destruct (_ =? 1); destruct (joined _ _ _); cbn; lia. }
  pose proof (NoDup_incl_length N1 N2). lia.
Qed.

(** A population spread over the islands of a torus and run: what holds of every driver holds of all islands. *)
Section Torus.
  Variables drv draw ind : Type.
  Variable value : ind -> vec.
  Variable admit : ind -> ind.
  Variable dstep : draw -> drv -> option drv.
  Variable dcost : drv -> nat.
  Variable dinds : drv -> list ind.
  Variable dset : drv -> list ind -> drv.
  Variable dfinal : drv -> option (drv * list vec).
  Variable dinit : list vec -> option drv.
  Variable f : vec -> vec.
  Variable fm : nat.
  Hypothesis Hf : forall v, length (f v) = fm.
  Hypothesis dset_cost : forall d l, dcost (dset d l) = dcost d.
  Variables (width n m E : nat) (population : list vec) (t topo : list (list nat)).
  Hypothesis Hw : 1 <= width.
  Hypothesis Hn : 1 <= n <= length population.
  Hypothesis HE : 1 <= E.
  Hypothesis Et : torus width n = Some t.
  Hypothesis HS : same_sets t topo.
  Variable iok : nat -> nat -> drv -> Prop.
  Variable mok : ind -> Prop.
  Variable vok : vec -> Prop.
  Variable outok : nat -> nat -> list vec -> Prop.
  Hypothesis Hpop : Forall vok population.
  Notation fits N := (length population / n <= N <= length population / n + 1).
  Hypothesis iok_init : forall a, Forall vok a -> fits (length a) -> exists d, dinit a = Some d /\ iok 0 (length a) d.
  Hypothesis iok_step : forall T N x d, fits N -> iok T N d -> exists d', dstep x d = Some d' /\ iok (S T) N d'.
  Hypothesis iok_room : forall T N d, fits N -> 1 <= T -> iok T N d -> m * 4 <= length (dinds d).
  Hypothesis iok_members : forall T N d, iok T N d -> Forall mok (dinds d).
  Hypothesis admit_mok : forall x, mok x -> mok (admit x).
  Hypothesis iok_set : forall T N d l, fits N -> 1 <= T -> iok T N d -> Forall mok l -> length l = length (dinds d) -> iok T N (dset d l).
  Hypothesis iok_final : forall T N d, fits N -> iok T N d -> exists d' out, dfinal d = Some (d', out) /\ outok T N out.

  Lemma torus_run Ds :
    Forall (fun D => (forall k, length (in_epoch D k) = E) /\ Permutation (completion D) (seq 0 n) /\
                     (forall i j, Forall draw_ok (in_migration D i j) /\ length (in_migration D i j) = m)) Ds ->
    exists s0 s outs sizes, imga_init drv dinit topo n population = Some s0 /\
      imga_steps drv draw ind value admit dstep dcost dinds dset f Ds s0 = Some s /\
      imga_final drv dfinal s = Some (concat outs) /\
      list_sum sizes = length population /\ Forall (fun N => fits N) sizes /\
      Forall2 (iok (length Ds * E)) sizes (imga_drivers s) /\ Forall2 (outok (length Ds * E)) sizes outs /\
      imga_cost s = (if length Ds =? 0 then 0 else list_sum (map dcost (imga_drivers s))).
  Proof.
    intros HD. destruct (torus_valid width n Hw) as (t' & Et' & V). rewrite Et in Et'. injection Et' as <-.
    pose proof (same_sets_valid _ _ _ HS V) as V'. pose proof (same_sets_NoDup _ _ HS) as ND. assert (Ltopo : length topo = n) by apply V'.
    destruct (islands_partition n population ltac:(lia)) as (subs & Es & Ls & Perm & Sz).
    set (sizes := map (@length vec) subs).
    assert (Sum : list_sum sizes = length population).
    { rewrite <- (Permutation_length Perm). unfold sizes. clear. induction subs as [|a l IH]; [reflexivity|]. cbn [map concat]. rewrite app_length. change (length a + list_sum (map (@length vec) l) = length a + length (concat l)). rewrite IH. reflexivity. }
    assert (Size : Forall (fun N => fits N) sizes).
    { apply Forall_forall. intros N H. apply In_nth_error in H. destruct H as (k & H). unfold sizes in H. rewrite nth_error_map in H.
      destruct (nth_error subs k) as [a|] eqn:Ea; [|discriminate]. cbn in H. injection H as <-. rewrite (Sz k a Ea). destruct (k <? _); lia. }
    assert (Size' : forall N, In N sizes -> fits N) by (rewrite Forall_forall in Size; exact Size).
    assert (Lsz : length sizes = length topo) by (unfold sizes; rewrite map_length; congruence).
    assert (exists ds, collect (map dinit subs) = Some ds /\ Forall2 (iok 0) sizes ds) as (ds & Eds & I0).
    { assert (HBs : Forall (Forall vok) subs).
      { apply Forall_forall. intros a Ha. apply Forall_forall. intros v Hv. rewrite Forall_forall in Hpop. apply Hpop. eapply Permutation_in; [exact Perm|]. apply in_concat. exists a. auto. }
      clear -HBs Size iok_init. unfold sizes in *. induction HBs as [|a subs Ha _ IH]; [exists []; split; [reflexivity | constructor]|].
      cbn [map] in Size |- *. inversion Size; subst. destruct (iok_init a Ha) as (d & Ed & Id); [assumption|]. destruct IH as (ds & E1 & I1); [assumption|].
      exists (d :: ds). cbn [collect]. rewrite Ed, E1. split; [reflexivity | constructor; assumption]. }
    set (s0 := {| imga_topology := topo; imga_drivers := ds; imga_cost := 0 |}).
    assert (V2 : valid_topology (length topo) topo) by (rewrite Ltopo; exact V').
    assert (HD' : Forall (draws_fit draw topo m E) Ds) by (eapply Forall_impl; [|exact HD]; intros D H; unfold draws_fit; rewrite Ltopo; exact H).
    destruct (imga_steps_ok drv draw ind value admit dstep dcost dinds dset f fm Hf dset_cost topo ND V2 m E HE sizes Lsz iok mok) with (Ds := Ds) (T := 0) (s := s0)
      as (s & Hs & _ & HI & HC & HN); try assumption; try reflexivity.
    - intros T N x d HN. apply iok_step. auto.
    - intros T N d k Hk HT I. transitivity (m * 4); [|eapply iok_room; eauto using nth_error_In].
      apply Nat.mul_le_mono_l. apply (torus_degree width n t topo k Hw Et HS). rewrite <- Ltopo, <- Lsz. apply nth_error_Some. congruence.
    - intros T N d l HN. apply iok_set. auto.
    - rewrite Nat.add_0_r in HI.
      destruct (imga_final_ok drv dfinal sizes iok (outok (length Ds * E)) (length Ds * E) s) as (outs & Ho & HO); [|exact HI|].
      { intros N d HN' I. apply iok_final; auto. }
      exists s0, s, outs, sizes. split; [unfold imga_init; rewrite Es, Eds; reflexivity|].
      split; [exact Hs|]. split; [exact Ho|]. split; [exact Sum|]. split; [exact Size|]. split; [exact HI|]. split; [exact HO|].
      destruct Ds as [|D Ds]; [rewrite (HN eq_refl); reflexivity | apply HC; discriminate].
  Qed.
End Torus.

(** ---- islands of NSGA-II ---- *)
Section NsgaIslands.
  Variable P : params.
  Hypothesis Hbox : valid_box (p_dims P).
  Hypothesis Htrim : forall v, in_box (p_dims P) v -> in_box (p_dims P) (p_trim P v).
  Hypothesis Hf : forall v, length (p_f P v) = p_m P.
  Hypothesis Hepsilon : (0 <= p_epsilon P)%Z.
  Hypothesis Heps : (0 < p_eps P)%Q.
  Hypothesis Hiter : forall x l, Permutation (p_iter P x l) l.
  Variable mating : nat -> nat.
  (** an island of [N] after [T] steps of its driver *)
  Definition nsga_island (T N : nat) (s : nstate) : Prop :=
    inv P N (mating N) s /\ archive s = None /\ cost s = N + T * mating N /\ (1 <= T -> length (individuals s) = N + mating N).

  Lemma nsga_island_init a : Forall (in_box (p_dims P)) a -> nsga_island 0 (length a) (init P mating None a).
  Proof.
    intros Ha. destruct (init_ok P Htrim mating None a Ha) as (I & L & C & _); [intros m0 k o; discriminate|]. destruct (C eq_refl) as (C1 & C2).
    split; [exact I|]. split; [exact C1|]. split; [rewrite C2; lia | lia].
  Qed.
  Lemma nsga_island_step T N x s : 1 <= N -> nsga_island T N s -> exists s', step P x s = Some s' /\ nsga_island (S T) N s'.
  Proof.
    intros HN (I & A & C & _).
    destruct (run_ops_ok P Hbox Htrim Hf Hepsilon Heps Hiter N (mating N) [Step x] HN s I) as (s' & Hs & I' & L & Hc & _).
    cbn in Hs. destruct (step P x s) as [s1|]; [|discriminate]. injection Hs as ->. exists s'. split; [reflexivity|]. destruct (Hc A) as (A' & C'). cbn in C', L.
    split; [exact I'|]. split; [exact A'|]. split; [rewrite C', C; lia | auto].
  Qed.
  Lemma nsga_island_set T N d l : nsga_island T N d -> Forall (good P) l -> length l = length (individuals d) -> nsga_island T N (with_individuals d l).
  Proof.
    intros ((G & I2 & I3 & I4 & I5 & I6) & A & C & L) Hl Hn. split; [|split; [exact A|]; split; [exact C|]].
    - split; [exact Hl|]. split; [exact I2|]. split; [exact I3|]. split; [cbn; rewrite Hn; exact I4|]. split; [exact I5 | exact I6].
    - intros HT. cbn. rewrite Hn. now apply L.
  Qed.
End NsgaIslands.

Lemma epoch_run' P ds : forall s message s' c, epoch nstate step_draws (step P) cost ds s message = Some (s', c) -> run_ops P s (map Step ds) = Some s'.
Proof.
  induction ds as [|d ds IH]; intros s message s' c H; cbn in *.
  - destruct message; [|discriminate]. congruence.
  - destruct (step P d s) as [s1|]; [|discriminate]. eapply IH; exact H.
Qed.

Lemma nsga_step_parts P D s s' : nsga_imga_step P D s = Some s' ->
  exists after : list nstate,
    length after = length (imga_drivers s) /\
    (forall k d, nth_error (imga_drivers s) k = Some d -> exists d', nth_error after k = Some d' /\ run_ops P d (map Step (in_epoch D k)) = Some d') /\
    exists islands, migration iv (fun i => i) (p_f P) (imga_topology s) (in_migration D)
        (map (fun d => {| isl_inds := individuals d; visa_office := []; all_refugees := [] |}) after) = Some islands /\
      map individuals (imga_drivers s') = map isl_inds islands /\
      map cost (imga_drivers s') = map cost after /\ map evals (imga_drivers s') = map evals after.
Proof.
  unfold nsga_imga_step, imga_step. intros H.
  match type of H with context [collect ?x] => destruct (collect x) as [results|] eqn:Ec; [|discriminate] end.
  destruct (migration _ _ (p_f P) _ _ _) as [islands|] eqn:Em; [|discriminate]. injection H as <-. cbn [imga_drivers].
  assert (Li : length islands = length results) by (rewrite (migration_length _ _ _ _ _ _ _ Em), map_length; reflexivity).
  exists (map fst results). split; [|split; [|exists islands; split; [|split]]].
  - rewrite map_length, (collect_length _ _ Ec), map_length, combine_length, seq_length. lia.
  - apply collect_Forall2 in Ec. intros k d Hk.
    assert (G : forall (l : list nstate) res base, Forall2 (fun o a => o = Some a) (map (fun kd : nat * nstate => epoch nstate step_draws (step P) cost (in_epoch D (fst kd)) (snd kd) None) (combine (seq base (length l)) l)) res ->
       forall k d, nth_error l k = Some d -> exists d', nth_error (map fst res) k = Some d' /\ run_ops P d (map Step (in_epoch D (base + k))) = Some d').
    { clear. induction l as [|x l IH]; intros res base HF k d Hk; [destruct k; discriminate|]. cbn [length seq combine map fst snd] in HF. inversion HF as [|o a ol al Eo Er]; subst.
      destruct k as [|k]; cbn in Hk.
      - injection Hk as ->. destruct a as (d', c). exists d'. split; [reflexivity|]. rewrite Nat.add_0_r. eapply epoch_run'; exact Eo.
      - destruct (IH al (S base) Er k d Hk) as (d' & E1 & E2). exists d'. split; [exact E1|]. replace (base + S k) with (S base + k) by lia. exact E2. }
    apply (G _ _ 0 Ec k d Hk).
  - rewrite map_map. exact Em.
  - clear -Li. revert islands Li. induction results as [|r results IH]; intros [|i islands] Li; try discriminate; [reflexivity|]. cbn [combine map fst snd]. cbn in Li. rewrite IH by lia. reflexivity.
  - clear -Li. assert (H : map cost (map (fun ri : nstate * nat * island indiv => with_individuals (fst (fst ri)) (isl_inds (snd ri))) (combine results islands)) = map cost (map fst results) /\
       map evals (map (fun ri : nstate * nat * island indiv => with_individuals (fst (fst ri)) (isl_inds (snd ri))) (combine results islands)) = map evals (map fst results)); [|exact H].
    revert islands Li. induction results as [|r results IH]; intros [|i islands] Li; try discriminate; [split; reflexivity|]. cbn [combine map fst snd]. cbn in Li.
    destruct (IH islands ltac:(lia)) as (H1 & H2). rewrite H1, H2. split; reflexivity.
Qed.
