(** Proofs about HGS: metaepochs and trimming. *)
From Verif Require Import Spec Base VarModel VarProofs HgsModel HgsSpec.
From Coq Require Import QArith Lqa.
Local Open Scope nat_scope.

(** ---- outcomes: [wp E x P]: x yields a result with P, or raises and raising is allowed (E); never out of fuel ---- *)
Definition wp {A} (E : Prop) (x : outcome A) (P : A -> Prop) : Prop := match x with Ok a => P a | Raises => E | NoFuel => False end.
Lemma wp_bind {A B} E (x : outcome A) (k : A -> outcome B) P Q : wp E x P -> (forall a, P a -> wp E (k a) Q) -> wp E (bind x k) Q.
Proof. destruct x; cbn; auto. Qed.
Lemma wp_weaken {A} E (x : outcome A) (P Q : A -> Prop) : wp E x P -> (forall a, P a -> Q a) -> wp E x Q.
Proof. destruct x; cbn; auto. Qed.
Lemma wp_get {A} (E : Prop) (l : list A) i : E \/ i < length l -> wp E (get l i) (fun x => nth_error l i = Some x).
Proof.
  unfold get. intros H. destruct (nth_error l i) eqn:N; cbn; [reflexivity|]. destruct H as [H|H]; [exact H|]. apply nth_error_None in N. lia.
Qed.
Lemma wp_get_at {A} (E : Prop) (l : list A) i x (P : A -> Prop) : nth_error l i = Some x -> P x -> wp E (get l i) P.
Proof. unfold get. intros ->. auto. Qed.
Lemma wp_fold {A S} (E : Prop) (f : S -> A -> outcome S) (I : list A -> S -> Prop) l : forall s,
  I [] s -> (forall don x rest s', l = don ++ x :: rest -> I don s' -> wp E (f s' x) (I (don ++ [x]))) -> wp E (fold_ok f l s) (I l).
Proof.
  assert (G : forall rest don s, l = don ++ rest -> I don s ->
    (forall don x rest s', l = don ++ x :: rest -> I don s' -> wp E (f s' x) (I (don ++ [x]))) -> wp E (fold_ok f rest s) (I l)).
  { induction rest as [|x rest IH]; intros don s El HI Hs; cbn [fold_ok].
    - rewrite app_nil_r in El. subst. exact HI.
    - eapply wp_bind; [eapply Hs; eassumption|]. intros s' HI'. eapply (IH (don ++ [x])); [rewrite <- app_assoc; exact El | exact HI' | exact Hs]. }
  intros s HI Hs. eapply (G l []); auto.
Qed.
Lemma wp_Ok {A} (x : outcome A) P a : wp True x P -> x = Ok a -> P a.
Proof. intros H ->. exact H. Qed.
Lemma wp_total {A} (x : outcome A) P : wp False x P -> exists a, x = Ok a /\ P a.
Proof. destruct x; cbn; [eauto | tauto | tauto]. Qed.

(** ---- shuffle and sample ---- *)
Lemma set_nth_same {A} (l : list A) : forall i x, nth_error l i = Some x -> set_nth i x l = l.
Proof. induction l as [|a l IH]; intros [|i] x H; cbn in *; try discriminate; [injection H as ->; reflexivity | f_equal; auto]. Qed.
Lemma set_nth_split {A} (l : list A) : forall i x y, nth_error l i = Some x -> exists pre post, l = pre ++ x :: post /\ length pre = i /\ set_nth i y l = pre ++ y :: post.
Proof.
  induction l as [|a l IH]; intros [|i] x y H; cbn in *; try discriminate.
  - injection H as ->. exists [], l. auto.
  - destruct (IH i x y H) as (pre & post & -> & <- & E). exists (a :: pre), post. cbn. now rewrite E.
Qed.
Lemma swap_perm {A} i j (l : list A) : Permutation l (swap i j l).
Proof.
  unfold swap. destruct (nth_error l i) as [x|] eqn:Ei; [|reflexivity]. destruct (nth_error l j) as [y|] eqn:Ej; [|reflexivity].
  destruct (Nat.eq_dec i j) as [->|N].
  - assert (x = y) by congruence. subst. rewrite (set_nth_same l j y Ej). rewrite (set_nth_same l j y Ej). reflexivity.
  - destruct (set_nth_split l j y x Ej) as (pre & post & El & Hl & Es). rewrite Es.
    assert (Ei' : nth_error (pre ++ x :: post) i = Some x) by (rewrite <- Es, nth_error_set_nth; rewrite (proj2 (Nat.eqb_neq j i)) by lia; exact Ei).
    destruct (set_nth_split _ i x y Ei') as (pre' & post' & El' & Hl' & Es'). rewrite Es'. rewrite El.
    assert (P1 : Permutation (x :: pre ++ y :: post) (y :: pre ++ x :: post)).
    { etransitivity; [apply perm_skip; symmetry; apply Permutation_middle|]. etransitivity; [apply perm_swap|]. apply perm_skip. apply Permutation_middle. }
    assert (P2 : Permutation (y :: pre ++ x :: post) (x :: pre' ++ y :: post')).
    { rewrite El'. etransitivity; [apply perm_skip; symmetry; apply Permutation_middle|]. etransitivity; [apply perm_swap|]. apply perm_skip. apply Permutation_middle. }
    apply (Permutation_cons_inv (a := x)). etransitivity; eassumption.
Qed.
Lemma shuffle_perm {A} draws (l : list A) : Permutation l (shuffle draws l).
Proof.
  unfold shuffle. generalize (length l - 1) as i. intros i. revert l. induction i as [|i IH]; intros l; cbn [shuffle_from]; [reflexivity|].
  etransitivity; [apply (swap_perm (S i) (draws (S i) mod S (S i)) l) | apply IH].
Qed.
Lemma sample_ok {A} (E : Prop) draws k : forall l : list A, E \/ k <= length l ->
  wp E (sample draws k l) (fun r => length r = k /\ exists rest, Permutation l (r ++ rest)).
Proof.
  induction k as [|k IH]; intros l H; cbn [sample wp]; [split; [reflexivity | exists l; reflexivity]|].
  destruct (Nat.eqb_spec (length l) 0) as [Z|Z]; [cbn; destruct H; [assumption | lia]|].
  assert (J : draws (S k) mod length l < length l) by (apply Nat.mod_upper_bound; lia). set (j := draws (S k) mod length l) in *.
  eapply wp_bind; [apply wp_get; now right|]. intros x Hx.
  destruct (nth_error_split _ _ Hx) as (l1 & l2 & El & Hj).
  assert (F : firstn j l ++ skipn (S j) l = l1 ++ l2).
  { rewrite El, <- Hj. rewrite firstn_app, firstn_all, Nat.sub_diag. cbn [firstn]. rewrite app_nil_r. f_equal.
    rewrite skipn_app. rewrite skipn_all2 by lia. replace (S (length l1) - length l1) with 1 by lia. reflexivity. }
  rewrite F. eapply wp_bind; [apply IH; destruct H as [H|H]; [now left | right; rewrite El in H; rewrite app_length in *; cbn in H; lia]|].
  intros r (L & rest & P). cbn. split; [now rewrite L|]. exists rest. rewrite El. rewrite <- Permutation_middle. constructor. exact P.
Qed.

(** ---- distances and means ---- *)
Lemma dist2_sqdist a : forall b, dist2 a b = sqdist a b.
Proof. unfold dist2. induction a as [|x a IH]; intros [|y b]; cbn; try reflexivity. now rewrite IH. Qed.
Lemma close_iff a b md : close a b md = true <-> closer_than md a b.
Proof.
  unfold close, closer_than. rewrite dist2_sqdist, andb_true_iff, !negb_true_iff. rewrite <- !not_true_iff_false, !Qle_bool_iff. split; intros (H1 & H2); split.
  - now apply Qnot_le_lt. - now apply Qnot_le_lt. - now apply Qlt_not_le. - now apply Qlt_not_le.
Qed.
Lemma mean_present vs : mean vs <> Missing.
Proof. destruct vs; discriminate. Qed.
Lemma wp_redundant (E : Prop) a b md : E \/ (a <> Missing /\ b <> Missing) -> wp E (redundant a b md) (fun r => r = true <-> near md a b).
Proof.
  intros H. unfold near. destruct a as [| |x], b as [| |y]; cbn; try (destruct H as [H|(H1 & H2)]; congruence);
    try (split; [discriminate | intros (x' & y' & X & Y & _); congruence]).
  rewrite close_iff. split; [eauto|]. intros (x' & y' & X & Y & Z). congruence.
Qed.
Lemma vsum_length n vs : (forall v, In v vs -> length v = n) -> length (vsum n vs) = n.
Proof.
  induction vs as [|v vs IH]; cbn; intros H; [apply repeat_length|]. rewrite map_length, combine_length, IH by auto. rewrite (H v) by auto. lia.
Qed.
Lemma nth_combine_sum (a : vec) : forall (b : vec) k, length a = length b -> k < length a -> nth k (map (fun p => (fst p + snd p)%Z) (combine a b)) 0%Z = (nth k a 0 + nth k b 0)%Z.
Proof. induction a as [|x a IH]; intros [|y b] [|k] L K; cbn in *; try lia. apply IH; lia. Qed.
Lemma vsum_nth n vs k : (forall v, In v vs -> length v = n) -> k < n -> nth k (vsum n vs) 0%Z = fold_right Z.add 0%Z (map (coordinate k) vs).
Proof.
  induction vs as [|v vs IH]; cbn; intros H K; [now rewrite nth_repeat|].
  rewrite nth_combine_sum, IH by (try (rewrite ?vsum_length); auto; rewrite (H v) by auto; auto). reflexivity.
Qed.
Lemma mean_is_mean vs n : vs <> [] -> (forall v, In v vs -> length v = n) -> exists c, mean vs = At c /\ is_mean vs c.
Proof.
  intros N H. destruct vs as [|v vs]; [congruence|]. unfold mean. set (l := v :: vs) in *. eexists. split; [reflexivity|].
  assert (Ev : length v = n) by (apply H; now left). rewrite Ev. split; [discriminate|]. split.
  - intros w Hw. rewrite map_length, vsum_length by assumption. now rewrite (H w Hw).
  - intros k K. rewrite map_length, vsum_length in K by assumption.
    set (g := fun x => (inject_Z x / inject_Z (Z.of_nat (length l)))%Q).
    rewrite (nth_indep _ 0%Q (g 0%Z)) by (rewrite map_length, vsum_length; assumption).
    rewrite map_nth, vsum_nth by assumption. unfold g. field. unfold l. cbn [length]. rewrite Nat2Z.inj_succ. intros X. unfold Qeq in X. cbn [Qnum Qden inject_Z] in X. lia.
Qed.

(** ---- stages of a step ---- *)
Lemma Qsum_from l : forall a, (fold_left Qplus l a == a + fold_right Qplus 0 l)%Q.
Proof. induction l as [|x l IH]; intros a; cbn; [ring | rewrite IH; ring]. Qed.
Lemma Qsum_snoc l x : (Qsum (l ++ [x]) == Qsum l + x)%Q.
Proof. unfold Qsum. rewrite fold_left_app. reflexivity. Qed.

Lemma Forall_nth {A} (P : A -> Prop) l i x : Forall P l -> nth_error l i = Some x -> P x.
Proof. intros H N. eapply Forall_forall; [exact H | eapply nth_error_In; exact N]. Qed.

Lemma sorted_NoDup l : StronglySorted lt l -> NoDup l.
Proof. induction 1 as [|a l S IH F]; constructor; [|exact IH]. intros X. rewrite Forall_forall in F. specialize (F a X). lia. Qed.
Lemma sorted_before l i j pre post : StronglySorted lt l -> l = pre ++ i :: post -> (In j pre <-> In j l /\ j < i).
Proof.
  intros H ->. induction pre as [|a pre IH]; cbn [app] in *; inversion H as [|? ? S F]; subst.
  - split; [intros []|]. intros ([->|X] & L); [lia|]. rewrite Forall_forall in F. specialize (F j X). lia.
  - specialize (IH S). rewrite Forall_forall in F. cbn. rewrite IH. split.
    + intros [->|(X & L)]; [split; [now left | apply F; apply in_or_app; right; now left] | split; [now right | exact L]].
    + intros ([X|X] & L); auto.
Qed.

Section Stages.
  Variables drv draw : Type.
  Variable dstep : draw -> drv -> option drv.
  Variable dcost : drv -> Z.
  Variable dfinal : draw -> drv -> option (drv * list vec).
  Variable ddelegates : drv -> option (list vec).
  Variable hv_of : list vec -> Q.
  Variable EPSILON : Q.
  Variable C : config.
  Notation hgs := (hgs drv). Notation node := (node drv). Notation step_draws := (step_draws draw).

  (** With E true nothing is assumed about the driver or the configuration; with E false no exception may occur. *)
  Variable E : Prop.
  Variables good ready : drv -> Prop.
  Variable goodv : vec -> Prop.
  Hypothesis Hstep : forall x d, good d -> wp E (of_option (dstep x d)) (fun d' => good d' /\ ready d').
  Hypothesis Hfinal : forall x d, good d -> ready d -> wp E (of_option (dfinal x d))
    (fun r => good (fst r) /\ Forall goodv (snd r) /\ wp E (of_option (ddelegates (fst r))) (Forall goodv)).
  Hypothesis Hcfg : E \/ (3 <= length (metaepoch_lens C) /\ 3 <= length (cost_modifiers C) /\ 3 <= length (min_dists C)).
  Hypothesis Hready : (forall d, good d -> ready d) \/ (forall len, In len (metaepoch_lens C) -> 1 <= len).

  Definition weight (l : nat) : Q := nth l (cost_modifiers C) 0%Q.
  Definition spent (n : node) : Q := (weight (level n) * inject_Z (current_cost n))%Q.
  Definition total (ns : list node) : Q := fold_right (fun n acc => spent n + acc)%Q 0%Q ns.

  Record base (n : node) : Prop := {
    b_ripe : ripe n = true -> alive n = false;
    b_good : good (driver n);
    b_pop : Forall goodv (population n);
    b_del : Forall goodv (delegates n);
    b_hv : relative_hypervolume n = None -> hypervolume n = None;
    b_old : hypervolume n = None -> old_hypervolume n = None
  }.

  Lemma total_set ns : forall i n n', nth_error ns i = Some n -> (total (set_nth i n' ns) == total ns + (spent n' - spent n))%Q.
  Proof.
    unfold total. induction ns as [|m ns IH]; intros [|i] n n' H; cbn [set_nth fold_right] in *; try discriminate.
    - injection H as ->. ring. - rewrite (IH i n n' H). ring.
  Qed.

  Lemma run_steps_ok ds : forall d cur, good d -> wp E (run_steps drv draw dstep dcost ds d cur) (fun r =>
    (good (fst (fst r)) /\ (ready d \/ 1 <= length ds -> ready (fst (fst r)))) /\ iterate dstep ds d = Some (fst (fst r)) /\ snd (fst r) = (if length ds =? 0 then cur else dcost (fst (fst r))) /\
    fold_right Z.add 0%Z (snd r) = (snd (fst r) - cur)%Z).
  Proof.
    induction ds as [|x ds IH]; intros d cur G; cbn [run_steps iterate].
    - cbn. repeat split; auto; [intros [H|H]; [exact H | lia] | lia].
    - destruct (dstep x d) as [d'|] eqn:Es; [|specialize (Hstep x d G); rewrite Es in Hstep; exact Hstep].
      pose proof (Hstep x d G) as G'. rewrite Es in G'. cbn in G'. destruct G' as (G' & R'). cbn [of_option bind].
      eapply wp_bind; [apply IH; exact G'|]. intros ((r & c) & costs). cbn [fst snd]. intros ((H1 & H1') & H2 & H3 & H4). cbn.
      split; [split; [exact H1 | intros _; apply H1'; now left]|]. split; [exact H2|]. split; [|rewrite H4; lia].
      rewrite H3. destruct ds as [|y ds]; cbn [length Nat.eqb]; [|reflexivity]. cbn in H2. congruence.
  Qed.

  Lemma node_metaepoch_ok D i n : base n -> level n < 3 -> wp E (node_metaepoch drv draw dstep dcost dfinal ddelegates hv_of C D i n) (fun r =>
    let n' := fst r in base n' /\
    (if alive n then exists len, nth_error (metaepoch_lens C) (level n) = Some len /\ after_metaepoch dstep dcost dfinal ddelegates hv_of len n n' else n' = n) /\
    fold_right Z.add 0%Z (snd r) = (current_cost n' - current_cost n)%Z).
  Proof.
    intros B L. unfold node_metaepoch. destruct (alive n) eqn:A; [|cbn; split; [exact B|]; split; [reflexivity | lia]].
    eapply wp_bind; [apply wp_get; destruct Hcfg as [X|X]; [now left | right; lia]|]. intros len Hlen.
    eapply wp_bind; [apply run_steps_ok; apply (b_good n B)|]. intros ((d & cur) & costs). cbn [fst snd]. rewrite map_length, seq_length. intros ((G & R) & It & Cur & Sum).
    assert (Rd : ready d) by (destruct Hready as [X|X]; [apply X; exact G | apply R; right; apply X; eapply nth_error_In; exact Hlen]). clear R.
    eapply wp_bind with (P := fun r => dfinal (in_finish D i) d = Some r /\ good (fst r) /\ Forall goodv (snd r) /\ wp E (of_option (ddelegates (fst r))) (Forall goodv)).
    { specialize (Hfinal (in_finish D i) d G Rd). destruct (dfinal (in_finish D i) d); cbn in *; auto. }
    intros (d' & pop). cbn [fst snd]. intros (Ef & Gd & Gp & Hd).
    eapply wp_bind with (P := fun dels => ddelegates d' = Some dels /\ Forall goodv dels).
    { destruct (ddelegates d'); cbn in *; auto. }
    intros dels (Ed & Gdel). cbn. split; [|split; [|exact Sum]].
    - constructor; cbn; try assumption.
      + intros R. rewrite (b_ripe n B R) in A. discriminate.
      + eapply Permutation_Forall; [apply shuffle_perm | exact Gdel].
      + destruct (relative_hypervolume n); discriminate.
      + destruct (relative_hypervolume n); [discriminate|]. auto.
    - exists len. split; [exact Hlen|]. constructor; cbn.
      + exists (map (in_metaepoch D i) (seq 0 len)), d, (in_finish D i), dels. rewrite map_length, seq_length. repeat split; try assumption. apply shuffle_perm.
      + destruct (relative_hypervolume n); reflexivity.
      + reflexivity.
      + reflexivity.
      + auto.
  Qed.

  (** What a metaepoch does to each node. *)
  Definition metaepoch_of (n n' : node) : Prop :=
    base n' /\ if alive n then exists len, nth_error (metaepoch_lens C) (level n) = Some len /\ after_metaepoch dstep dcost dfinal ddelegates hv_of len n n' else n' = n.

  Lemma metaepoch_same n n' : metaepoch_of n n' -> level n' = level n /\ sprouts n' = sprouts n /\ alive n' = alive n /\ ripe n' = ripe n /\ center n' = center n.
  Proof. intros (_ & H). destruct (alive n) eqn:A; [|subst; auto]. destruct H as (len & _ & M). destruct (am_same _ _ _ _ _ _ _ _ M) as (-> & -> & -> & -> & ->). auto. Qed.

  Lemma weighted_ok l cs : (cs = [] \/ E \/ l < length (cost_modifiers C)) ->
    wp E (fold_ok (fun acc c => do m <- get (cost_modifiers C) l; Ok (acc ++ [(m * inject_Z c)%Q])) cs [])
         (fun w => (Qsum w == weight l * inject_Z (fold_right Z.add 0%Z cs))%Q).
  Proof.
    intros H. eapply wp_weaken.
    - apply (wp_fold E _ (fun don w => (Qsum w == weight l * inject_Z (fold_right Z.add 0%Z don))%Q)).
      + cbn. ring.
      + intros don c rest w El Hw. eapply wp_bind; [apply wp_get; destruct H as [->|H]; [now destruct don | exact H]|]. intros m Hm. cbn [wp].
        rewrite Qsum_snoc, Hw. unfold weight. rewrite (nth_error_nth _ _ 0%Q Hm).
        assert (X : fold_right Z.add 0%Z (don ++ [c]) = (fold_right Z.add 0 don + c)%Z) by (clear; induction don; cbn; lia).
        rewrite X, inject_Z_plus. ring.
    - auto.
  Qed.

  (** The jobs of a metaepoch, one after another. *)
  Definition pointwise (R : node -> node -> Prop) (touched : nat -> Prop) (s s' : hgs) : Prop :=
    length (nodes s') = length (nodes s) /\ level_nodes s' = level_nodes s /\ min_progress_ratio s' = min_progress_ratio s /\
    forall i n, node_at s i n -> exists n', node_at s' i n' /\ (touched i -> R n n') /\ (~ touched i -> n' = n).

  Lemma metaepoch_jobs D s ids : (forall i n, node_at s i n -> base n /\ level n < 3) -> NoDup ids -> (forall i, In i ids -> i < length (nodes s)) ->
    wp E (fold_ok (metaepoch_job drv draw dstep dcost dfinal ddelegates hv_of C D) ids (s, [])) (fun r =>
      pointwise metaepoch_of (fun i => In i ids) s (fst r) /\ hcost (fst r) = hcost s /\ (total (nodes (fst r)) == total (nodes s) + Qsum (snd r))%Q).
  Proof.
    intros B ND R.
    apply (wp_fold E _ (fun don r => pointwise metaepoch_of (fun i => In i don) s (fst r) /\ hcost (fst r) = hcost s /\ (total (nodes (fst r)) == total (nodes s) + Qsum (snd r))%Q)).
    - cbn. split; [|split; [reflexivity | unfold Qsum; cbn; ring]]. do 3 (split; [reflexivity|]). intros i n H. exists n. split; [exact H|]. split; [intros [] | reflexivity].
    - intros don i rest (s1 & costs) El ((L & Ln & Mp & Pw) & Hc & Ht). cbn [fst snd] in *.
      assert (Ii : i < length (nodes s)) by (apply R; rewrite El; apply in_or_app; right; now left).
      assert (Ndon : ~ In i don) by (rewrite El in ND; apply NoDup_remove_2 in ND; intros X; apply ND; apply in_or_app; now left).
      destruct (nth_error (nodes s) i) as [n|] eqn:Ni; [|apply nth_error_None in Ni; lia].
      destruct (Pw i n Ni) as (n1 & Ni1 & _ & Same). specialize (Same Ndon). subst n1. destruct (B i n Ni) as (Bn & Lv).
      unfold metaepoch_job. unfold node_at in Ni1. unfold get at 1. rewrite Ni1. cbn [bind].
      eapply wp_bind; [apply node_metaepoch_ok; assumption|]. intros (n' & cs). cbn [fst snd]. intros (Bn' & Hn' & Sum).
      eapply wp_bind; [apply weighted_ok; right; destruct Hcfg as [X|X]; [now left | right; lia]|]. intros w Hw. cbn [wp fst snd set_node nodes hcost].
      split; [|split; [exact Hc|]].
      + unfold pointwise. cbn. rewrite set_nth_length. split; [exact L|]. split; [exact Ln|]. split; [exact Mp|].
        intros j m Hm. destruct (Pw j m Hm) as (m1 & Hm1 & T & U). unfold node_at. cbn. rewrite nth_error_set_nth. destruct (Nat.eqb_spec i j) as [<-|Ne].
        * rewrite Hm1. exists n'. assert (m = n) by (unfold node_at in Hm; congruence). subst m. split; [reflexivity|]. split.
          -- intros _. split; [exact Bn'|]. exact Hn'.
          -- intros X. exfalso. apply X. apply in_or_app. right. now left.
        * exists m1. split; [exact Hm1|]. split.
          -- intros X. apply T. apply in_app_or in X. destruct X as [X|[X|[]]]; [exact X | congruence].
          -- intros X. apply U. intros Y. apply X. apply in_or_app. now left.
      + rewrite (total_set _ _ n n' Ni1), Ht, Qsum_snoc, Hw, Sum.
        assert (Lv' : level n' = level n) by (apply (metaepoch_same n n'); split; assumption).
        unfold spent. rewrite Lv'. unfold Z.sub. rewrite inject_Z_plus, inject_Z_opp. ring.
  Qed.

  Lemma perm_levels top (s : hgs) l0 l1 l2 : well_formed top s -> nth_error (level_nodes s) 0 = Some l0 -> nth_error (level_nodes s) 1 = Some l1 -> nth_error (level_nodes s) 2 = Some l2 ->
    NoDup (l2 ++ l1 ++ l0) /\ forall i, In i (l2 ++ l1 ++ l0) <-> i < length (nodes s).
  Proof.
    intros W H0 H1 H2. destruct (wf_listed _ _ W _ _ H0) as (N0 & I0), (wf_listed _ _ W _ _ H1) as (N1 & I1), (wf_listed _ _ W _ _ H2) as (N2 & I2).
    apply sorted_NoDup in N0, N1, N2.
    assert (U : forall i n n', node_at s i n -> node_at s i n' -> n = n') by (unfold node_at; congruence).
    split.
    - apply NoDup_app_disj; [exact N2 | apply NoDup_app_disj; [exact N1 | exact N0 |] |].
      + intros i A B. apply I1 in A. apply I0 in B. destruct A as (n & A & La), B as (m & B & Lb). pose proof (U _ _ _ A B). subst. lia.
      + intros i A B. apply I2 in A. destruct A as (n & A & La). apply in_app_or in B. destruct B as [B|B]; [apply I1 in B | apply I0 in B]; destruct B as (m & B & Lb); pose proof (U _ _ _ A B); subst; lia.
    - intros i. rewrite !in_app_iff, I0, I1, I2. split.
      + intros [(n & H & _)|[(n & H & _)|(n & H & _)]]; apply nth_error_Some; unfold node_at in H; congruence.
      + intros H. destruct (nth_error (nodes s) i) as [n|] eqn:Ni; [|apply nth_error_None in Ni; lia].
        destruct (wf_levels _ _ W i n Ni) as (L & _). assert (X : level n = 2 \/ level n = 1 \/ level n = 0) by lia. destruct X as [X|[X|X]]; eauto.
  Qed.

  Lemma wp_level (s : hgs) top l (P : list nat -> Prop) : well_formed top s -> l < 3 -> (forall ids, nth_error (level_nodes s) l = Some ids -> P ids) -> wp E (get (level_nodes s) l) P.
  Proof. intros W L H. eapply wp_weaken; [apply wp_get; right; rewrite (wf_three _ _ W); exact L | exact H]. Qed.

  Lemma run_metaepoch_ok D top (s : hgs) : well_formed top s -> (forall i n, node_at s i n -> base n) ->
    wp E (run_metaepoch drv draw dstep dcost dfinal ddelegates hv_of C D s) (fun s' =>
      pointwise metaepoch_of (fun _ => True) s s' /\ (hcost s' - total (nodes s') == hcost s - total (nodes s))%Q).
  Proof.
    intros W B. unfold run_metaepoch.
    eapply wp_bind; [apply (wp_level s top 2 (fun l => nth_error (level_nodes s) 2 = Some l) W); auto; lia|]. intros l2 H2.
    eapply wp_bind; [apply (wp_level s top 1 (fun l => nth_error (level_nodes s) 1 = Some l) W); auto; lia|]. intros l1 H1.
    eapply wp_bind; [apply (wp_level s top 0 (fun l => nth_error (level_nodes s) 0 = Some l) W); auto; lia|]. intros l0 H0.
    destruct (perm_levels top s l0 l1 l2 W H0 H1 H2) as (ND & All).
    eapply wp_bind; [apply (metaepoch_jobs D s (l2 ++ l1 ++ l0)); [intros i n H; split; [eauto | now apply (wf_levels _ _ W i n)] | exact ND | intros i Hi; now apply All]|].
    intros (s' & costs). cbn [fst snd]. intros ((L & Ln & Mp & Pw) & Hc & Ht). cbn [wp nodes hcost]. split.
    - unfold pointwise. cbn. split; [exact L|]. split; [exact Ln|]. split; [exact Mp|]. intros i n H. destruct (Pw i n H) as (n' & H' & T & _).
      exists n'. split; [exact H'|]. split; [|tauto]. intros _. apply T. apply All. apply nth_error_Some. unfold node_at in H. congruence.
    - rewrite Ht, Hc. ring.
  Qed.
End Stages.
