(** Proofs about the IBEA model. *)
From Verif Require Import Spec Base IbeaSpec DomModel DomProofs NDSortModel VarModel VarProofs
     SortModel SortProofs NsgaModel NsgaProofs MetModel MetProofs IbeaModel.
From Coq Require Import Reals Lra.
Local Open Scope nat_scope.

Lemma rmax_fold (l : list R) x :
  let v := fold_left (fun m y => if Rlt_dec m y then y else m) l x in
  (v = x \/ In v l) /\ (x <= v)%R /\ (forall y, In y l -> (y <= v)%R).
Proof.
  revert x. induction l as [|a l IH]; intros x; cbn [fold_left].
  - split; [auto|]. split; [lra|]. intros y [].
  - destruct (IH (if Rlt_dec x a then a else x)) as (H1 & H2 & H3). cbv zeta in *. split; [|split].
    + destruct H1 as [H1|H1]; [|right; now right]. rewrite H1. destruct (Rlt_dec x a); [right; now left | now left].
    + destruct (Rlt_dec x a); lra.
    + intros y [<-|Hy]; [|auto]. destruct (Rlt_dec x a); lra.
Qed.

Lemma rmax_spec l v : rmax l = Some v -> In v l /\ forall y, In y l -> (y <= v)%R.
Proof.
  destruct l as [|x l]; [discriminate|]. intros [= <-]. destruct (rmax_fold l x) as (H1 & H2 & H3). split.
  - destruct H1 as [->|H1]; [now left | now right].
  - intros y [<-|Hy]; auto.
Qed.

Lemma rmax_some l : l <> [] -> exists v, rmax l = Some v.
Proof. destruct l; [congruence|]. intros _. eexists. reflexivity. Qed.

Lemma rsum_perm l l' : Permutation l l' -> rsum l = rsum l'.
Proof. unfold rsum. induction 1; cbn [fold_right]; lra. Qed.

Lemma indicator_fitness_perm w S S' x : Permutation S S' -> indicator_fitness w S x = indicator_fitness w S' x.
Proof. intros H. unfold indicator_fitness. f_equal. apply rsum_perm, Permutation_map, filter_perm, H. Qed.

Lemma indicator_fitness_cons w r S x : r <> x ->
  indicator_fitness w (r :: S) x = (indicator_fitness w S x - w r x)%R.
Proof.
  intros H. unfold indicator_fitness. cbn [filter]. apply Nat.eqb_neq in H. rewrite H. cbn [negb map rsum fold_right].
  unfold rsum. lra.
Qed.

Lemma sum_losses_spec w S x : sum_losses w S x = indicator_fitness w S x.
Proof.
  unfold sum_losses, indicator_fitness.
  assert (G : forall l a, fold_left (fun s x2 => if x2 =? x then s else (s + (-1) * w x2 x)%R) l a
                          = (a - rsum (map (fun y => w y x) (filter (fun y => negb (y =? x)) l)))%R).
  { induction l as [|y l IH]; intros a; cbn [fold_left filter]; [unfold rsum; cbn; lra|].
    rewrite IH. destruct (y =? x); cbn [negb]; [reflexivity|]. cbn [map]. unfold rsum. cbn [fold_right]. lra. }
  rewrite G. lra.
Qed.

Lemma fold_upd (g : nat -> R) (l : list nat) : NoDup l -> forall fit x,
  fold_left (fun fit x => upd fit x (fit x + g x)%R) l fit x
  = if existsb (Nat.eqb x) l then (fit x + g x)%R else fit x.
Proof.
  induction 1 as [|a l Ha ND IH]; intros fit x; cbn [fold_left existsb]; [reflexivity|].
  rewrite IH. unfold upd. destruct (x =? a) eqn:E; cbn [orb].
  - apply Nat.eqb_eq in E. subst a. destruct (existsb (Nat.eqb x) l) eqn:E'; [|reflexivity].
    apply existsb_exists in E'. destruct E' as (y & Hy & Ey). apply Nat.eqb_eq in Ey. subst y. contradiction.
  - reflexivity.
Qed.

Lemma selection_loop_spec ls size fuel : forall inds fit removed,
  length inds <= fuel -> NoDup inds ->
  (forall x, In x inds -> fit x = indicator_fitness ls inds x) ->
  exists surv fit' rs, selection_loop ls size fuel inds fit removed = Some (surv, fit', removed ++ rs) /\
    removals ls inds rs surv /\ length surv = Nat.min size (length inds) /\ NoDup surv /\ incl surv inds /\
    (forall x, In x surv -> fit' x = indicator_fitness ls surv x).
Proof.
  induction fuel as [|fuel IH]; intros inds fit removed Hf ND HF; cbn [selection_loop].
  - assert (inds = []) by (destruct inds; [reflexivity | cbn in Hf; lia]). subst inds. cbn [length Nat.leb].
    exists [], fit, []. rewrite app_nil_r. split; [reflexivity|]. split; [apply removed_none, perm_nil|].
    split; [cbn; lia|]. split; [constructor|]. split; [intros x []|]. intros x [].
  - destruct (length inds <=? size) eqn:E.
    + apply Nat.leb_le in E. exists inds, fit, []. rewrite app_nil_r. split; [reflexivity|].
      split; [apply removed_none; reflexivity|]. split; [lia|]. split; [exact ND|]. split; [apply incl_refl | exact HF].
    + apply Nat.leb_gt in E.
      set (le := fun a b => if Rle_dec (fit b) (fit a) then true else false).
      pose proof (stable_sort_perm le inds) as PP.
      assert (SS : StronglySorted (fun a b => le a b = true) (stable_sort le inds)).
      { apply (stable_sort_sorted _ (fun _ => True)); [| |apply Forall_forall; auto].
        - intros a b _ _. unfold le. destruct (Rle_dec (fit b) (fit a)), (Rle_dec (fit a) (fit b)); auto; lra.
        - intros a b c _ _ _. unfold le. destruct (Rle_dec (fit b) (fit a)), (Rle_dec (fit c) (fit b)), (Rle_dec (fit c) (fit a)); auto; try discriminate; lra. }
      destruct (rev (stable_sort le inds)) as [|r rest] eqn:ER.
      { apply (f_equal (@length nat)) in ER. rewrite rev_length, stable_sort_length in ER. cbn in ER. lia. }
      assert (ES : stable_sort le inds = rev rest ++ [r]).
      { rewrite <- (rev_involutive (stable_sort le inds)), ER. reflexivity. }
      rewrite ES in PP, SS.
      assert (PP' : Permutation inds (r :: rev rest)).
      { rewrite <- PP. rewrite Permutation_app_comm. reflexivity. }
      assert (ND' : NoDup (r :: rev rest)) by (eapply Permutation_NoDup; [exact PP' | exact ND]).
      inversion ND' as [|? ? Hr NDr]; subst.
      assert (Hmin : forall y, In y inds -> (fit r <= fit y)%R).
      { intros y Hy. apply (Permutation_in _ PP') in Hy. destruct Hy as [<-|Hy]; [lra|].
        pose proof (StronglySorted_app_inv (fun a b => le a b = true) _ _ SS y r Hy (or_introl eq_refl)) as G.
        unfold le in G. destruct (Rle_dec (fit r) (fit y)); [assumption | discriminate]. }
      assert (Hin : In r inds) by (apply (Permutation_in _ (Permutation_sym PP')); now left).
      destruct (IH (rev rest) (fold_left (fun fit x => upd fit x (fit x + ls r x)%R) (rev rest) fit) (removed ++ [r]))
        as (surv & fit' & rs & E1 & E2 & E3 & E4 & E5 & E6).
      * apply Permutation_length in PP'. cbn [length] in PP'. lia.
      * exact NDr.
      * intros x Hx. rewrite (fold_upd (fun x => ls r x) _ NDr).
        assert (EX : existsb (Nat.eqb x) (rev rest) = true) by (apply existsb_exists; exists x; split; [exact Hx | apply Nat.eqb_refl]).
        rewrite EX. assert (Hxi : In x inds) by (apply (Permutation_in _ (Permutation_sym PP')); now right).
        rewrite (HF x Hxi), (indicator_fitness_perm _ _ _ x PP'), indicator_fitness_cons; [lra|].
        intros ->. contradiction.
      * exists surv, fit', (r :: rs). rewrite E1. rewrite <- app_assoc. cbn [app]. split; [reflexivity|].
        split.
        { apply removed_one with (S' := rev rest); auto. intros y Hy. rewrite <- !HF by auto. now apply Hmin. }
        apply Permutation_length in PP'. cbn [length] in PP'.
        split; [rewrite E3; lia|]. split; [exact E4|]. split; [|exact E6].
        intros x Hx. apply E5 in Hx. apply (Permutation_in _ PP). apply in_or_app. now left.
Qed.

Section I.
  Variables eps kappa : R.
  Variable m : nat.
  Variable objv : nat -> vec.
  Notation ob := (ob objv).

  Lemma measured_spec inds : inds <> [] ->
    exists ranges, measured m objv inds = Some ranges /\
      forall j, j < m -> objective_range (ob j) inds (fst (nth j ranges (0,0)%Z)) (snd (nth j ranges (0,0)%Z)).
  Proof.
    intros Hne. unfold measured.
    set (g := fun j => match py_min (map (ob j) inds), py_max (map (ob j) inds) with
                       | Some lo, Some hi => Some (lo, hi) | _, _ => None end).
    assert (G : forall j, exists lo hi, g j = Some (lo, hi) /\ objective_range (ob j) inds lo hi).
    { intros j. unfold g. destruct (map (ob j) inds) as [|z zs] eqn:E; [apply map_eq_nil in E; congruence|].
      destruct (py_min (z :: zs)) as [lo|] eqn:E1; [|discriminate].
      destruct (py_max (z :: zs)) as [hi|] eqn:E2; [|discriminate].
      exists lo, hi. split; [reflexivity|]. rewrite <- E in E1, E2.
      apply py_min_spec in E1. apply py_max_spec in E2. destruct E1 as (I1 & M1), E2 as (I2 & M2).
      apply in_map_iff in I1, I2. destruct I1 as (x1 & X1 & H1), I2 as (x2 & X2 & H2).
      split; [exists x1; auto|]. split; [exists x2; auto|]. intros x Hx.
      split; [apply M1, in_map, Hx | apply M2, in_map, Hx]. }
    destruct (comprehension_total g (seq 0 m)) as (ranges & E).
    { intros j _. destruct (G j) as (lo & hi & Ej & _). eauto. }
    exists ranges. split; [exact E|]. intros j Hj. apply comprehension_spec in E.
    destruct (G j) as (lo & hi & Ej & HR). apply Forall2_nth_error in E. destruct E as (EL & E).
    rewrite seq_length in EL. destruct (nth_error ranges j) as [p|] eqn:Ep; [|apply nth_error_None in Ep; lia].
    assert (Es : nth_error (seq 0 m) j = Some j).
    { rewrite nth_error_nth' with (d := 0) by (rewrite seq_length; lia). now rewrite seq_nth. }
    specialize (E j j p Es Ep). rewrite (nth_error_nth _ _ _ Ep). rewrite Ej in E. injection E as <-. exact HR.
  Qed.

  Lemma range_unique o S lo hi lo' hi' : objective_range o S lo hi -> objective_range o S lo' hi' -> lo = lo' /\ hi = hi'.
  Proof.
    intros ((a & Ha & <-) & (b & Hb & <-) & M) ((a' & Ha' & <-) & (b' & Hb' & <-) & M').
    pose proof (M a' Ha'). pose proof (M' a Ha). pose proof (M b' Hb'). pose proof (M' b Hb). lia.
  Qed.

  Lemma indicator_spec inds ranges x y : 1 <= m ->
    (forall j, j < m -> objective_range (ob j) inds (fst (nth j ranges (0,0)%Z)) (snd (nth j ranges (0,0)%Z))) ->
    exists v, indicator eps m objv ranges x y = Some v /\ additive_epsilon eps m ob inds x y v.
  Proof.
    intros Hm HR. unfold indicator. destruct (rmax_some (map (fun j => scaled eps objv ranges j x - scaled eps objv ranges j y)%R (seq 0 m))) as (v & E).
    { destruct m; [lia | discriminate]. }
    exists v. split; [exact E|]. apply rmax_spec in E. destruct E as (E1 & E2).
    exists (fun j => fst (nth j ranges (0,0)%Z)), (fun j => snd (nth j ranges (0,0)%Z)). split; [exact HR|].
    assert (SC : forall j z, scaled eps objv ranges j z =
      (IZR (ob j z - fst (nth j ranges (0,0)%Z)) / (IZR (snd (nth j ranges (0,0)%Z) - fst (nth j ranges (0,0)%Z)) + eps))%R).
    { intros j z. unfold scaled. destruct (nth j ranges (0, 0)%Z). reflexivity. }
    split.
    - apply in_map_iff in E1. destruct E1 as (j & <- & Hj). apply in_seq in Hj. exists j. split; [lia|]. now rewrite !SC.
    - intros j Hj. specialize (E2 (scaled eps objv ranges j x - scaled eps objv ranges j y)%R).
      rewrite !SC in E2. apply E2. apply in_map_iff. exists j. rewrite !SC. split; [reflexivity|]. apply in_seq. lia.
  Qed.

  (** the scaled difference in objective j, and the indicator, for any ranges *)
  Definition gap (ranges : list (Z * Z)) (j x y : nat) : R :=
    let '(lo, hi) := nth j ranges (0, 0)%Z in (IZR (ob j x - lo) / (IZR (hi - lo) + eps) - IZR (ob j y - lo) / (IZR (hi - lo) + eps))%R.
  Definition largest_gap (ranges : list (Z * Z)) (x y : nat) (v : R) : Prop :=
    (exists j, j < m /\ v = gap ranges j x y) /\ forall j, j < m -> (gap ranges j x y <= v)%R.

  Lemma indicator_gap ranges x y : 1 <= m -> exists v, indicator eps m objv ranges x y = Some v /\ largest_gap ranges x y v.
  Proof.
    intros Hm. unfold indicator. destruct (rmax_some (map (fun j => scaled eps objv ranges j x - scaled eps objv ranges j y)%R (seq 0 m))) as (v & E).
    { destruct m; [lia | discriminate]. }
    exists v. split; [exact E|]. apply rmax_spec in E. destruct E as (E1 & E2).
    assert (SC : forall j, (scaled eps objv ranges j x - scaled eps objv ranges j y)%R = gap ranges j x y).
    { intros j. unfold gap, scaled. destruct (nth j ranges (0, 0)%Z). reflexivity. }
    split.
    - apply in_map_iff in E1. destruct E1 as (j & <- & Hj). apply in_seq in Hj. exists j. split; [lia | apply SC].
    - intros j Hj. rewrite <- SC. apply E2. apply in_map_iff. exists j. split; [reflexivity | apply in_seq; lia].
  Qed.

  Lemma select_within_spec ranges size inds : 1 <= m -> inds <> [] -> NoDup inds ->
    exists surv fit rs I c, select_within eps kappa m objv ranges size inds = Some (surv, fit, rs) /\
      (forall x y, largest_gap ranges x y (I x y)) /\ (0 <= c)%R /\
      removals (fun x y => exp (- (I x y / Rabs (c * kappa + eps)))%R) inds rs surv /\
      length surv = Nat.min size (length inds) /\ NoDup surv /\ incl surv inds.
  Proof.
    intros Hm Hne ND. unfold select_within, indicators.
    destruct (comprehension_total (fun p => indicator eps m objv ranges (fst p) (snd p)) (list_prod inds inds)) as (ds & ->).
    { intros p _. destruct (indicator_gap ranges (fst p) (snd p) Hm) as (v & E & _). eauto. }
    set (I := fun a b => match indicator eps m objv ranges a b with Some r => r | None => 0%R end).
    unfold scale_factor.
    destruct (rmax_some (map (fun p => Rabs (I (fst p) (snd p))) (list_prod inds inds))) as (c & Ec).
    { destruct inds; [congruence | discriminate]. }
    rewrite Ec. apply rmax_spec in Ec. destruct Ec as (C1 & _).
    destruct (selection_loop_spec (loss eps kappa I c) size (length inds) inds (sum_losses (loss eps kappa I c) inds) [])
      as (surv & fit & rs & E1 & E2 & E3 & E4 & E5 & E6); [lia | exact ND | intros; apply sum_losses_spec |].
    rewrite E1. exists surv, fit, rs, I, c. cbn [app]. split; [reflexivity|]. split.
    { intros x y. unfold I. destruct (indicator_gap ranges x y Hm) as (v & -> & H). exact H. }
    split. { apply in_map_iff in C1. destruct C1 as (p & <- & _). apply Rabs_pos. }
    split; [|auto].
    assert (WF : forall S x, indicator_fitness (loss eps kappa I c) S x = indicator_fitness (fun x y => exp (- (I x y / Rabs (c * kappa + eps)))%R) S x).
    { intros S x. unfold indicator_fitness. f_equal. f_equal. apply map_ext. intros y. unfold loss. f_equal. lra. }
    clear - E2 WF. induction E2 as [S T HP|S r S' rs T HP HM HR IH]; [now apply removed_none|].
    apply removed_one with (S' := S'); auto. intros y Hy. rewrite <- !WF. auto.
  Qed.

  Lemma select_spec size inds : 1 <= m -> inds <> [] -> NoDup inds ->
    exists surv fit rs I c, select eps kappa m objv size inds = Some (surv, fit, rs) /\
      (forall x y, In x inds -> In y inds -> additive_epsilon eps m ob inds x y (I x y)) /\
      (exists x y, In x inds /\ In y inds /\ c = Rabs (I x y)) /\
      (forall x y, In x inds -> In y inds -> (Rabs (I x y) <= c)%R) /\
      (let w x y := exp (- (I x y / Rabs (c * kappa + eps)))%R in
       removals w inds rs surv /\
       (forall x, In x surv -> fit x = indicator_fitness w surv x)) /\
      length surv = Nat.min size (length inds) /\ NoDup surv /\ incl surv inds.
  Proof.
    intros Hm Hne ND. unfold select. destruct (measured_spec inds Hne) as (ranges & -> & HR).
    unfold select_within, indicators.
    destruct (comprehension_total (fun p => indicator eps m objv ranges (fst p) (snd p)) (list_prod inds inds)) as (ds & ->).
    { intros p _. destruct (indicator_spec inds ranges (fst p) (snd p) Hm HR) as (v & E & _). eauto. }
    set (I := fun a b => match indicator eps m objv ranges a b with Some r => r | None => 0%R end).
    unfold scale_factor.
    destruct (rmax_some (map (fun p => Rabs (I (fst p) (snd p))) (list_prod inds inds))) as (c & Ec).
    { destruct inds; [congruence | discriminate]. }
    rewrite Ec. apply rmax_spec in Ec. destruct Ec as (C1 & C2).
    destruct (selection_loop_spec (loss eps kappa I c) size (length inds) inds (sum_losses (loss eps kappa I c) inds) [])
      as (surv & fit & rs & E1 & E2 & E3 & E4 & E5 & E6); [lia | exact ND | intros; apply sum_losses_spec |].
    rewrite E1. exists surv, fit, rs, I, c. cbn [app]. split; [reflexivity|]. split.
    { intros x y _ _. unfold I. destruct (indicator_spec inds ranges x y Hm HR) as (v & -> & H). exact H. }
    split.
    { apply in_map_iff in C1. destruct C1 as ((x & y) & <- & Hp). apply in_prod_iff in Hp. exists x, y. tauto. }
    split.
    { intros x y Hx Hy. apply C2. apply in_map_iff. exists (x, y). split; [reflexivity | now apply in_prod]. }
    assert (W : forall x y, loss eps kappa I c x y = exp (- (I x y / Rabs (c * kappa + eps)))%R).
    { intros x y. unfold loss. f_equal. lra. }
    assert (WF : forall S x, indicator_fitness (loss eps kappa I c) S x = indicator_fitness (fun x y => exp (- (I x y / Rabs (c * kappa + eps)))%R) S x).
    { intros S x. unfold indicator_fitness. f_equal. f_equal. apply map_ext. intros y. apply W. }
    split; [|auto]. cbv zeta. split.
    - clear - E2 WF. induction E2 as [S T HP|S r S' rs T HP HM HR IH]; [now apply removed_none|].
      apply removed_one with (S' := S'); auto. intros y Hy. rewrite <- !WF. auto.
    - intros x Hx. rewrite <- WF. auto.
  Qed.
End I.

(** ---- dominance ---- *)
Lemma additive_epsilon_unique eps m o S x y v v' :
  additive_epsilon eps m o S x y v -> additive_epsilon eps m o S x y v' -> v = v'.
Proof.
  intros (lo & hi & HR & (j & Hj & Ev) & HM) (lo' & hi' & HR' & (j' & Hj' & Ev') & HM').
  assert (E : forall i, i < m -> lo i = lo' i /\ hi i = hi' i) by (intros i Hi; eapply range_unique; eauto).
  apply Rle_antisym.
  - rewrite Ev. destruct (E j Hj) as (-> & ->). now apply HM'.
  - rewrite Ev'. destruct (E j' Hj') as (<- & <-). now apply HM.
Qed.

Lemma indicator_fitness_self w S x : indicator_fitness w (x :: S) x = indicator_fitness w S x.
Proof. unfold indicator_fitness. cbn [filter]. now rewrite Nat.eqb_refl. Qed.

Lemma indicator_fitness_le w S x y : ~ In x S -> ~ In y S -> (forall z, In z S -> (w z x <= w z y)%R) ->
  (indicator_fitness w S y <= indicator_fitness w S x)%R.
Proof.
  induction S as [|z S IH]; intros Hx Hy H; [unfold indicator_fitness; cbn; lra|].
  rewrite !indicator_fitness_cons by (intros ->; first [apply Hx; now left | apply Hy; now left]).
  specialize (H z (or_introl eq_refl)) as Hz.
  assert (indicator_fitness w S y <= indicator_fitness w S x)%R; [|lra].
  apply IH; [intro; apply Hx; now right | intro; apply Hy; now right | intros; apply H; now right].
Qed.

Section Dominance.
  Variables eps kappa c : R.
  Variable m : nat.
  Variable objv : nat -> vec.
  Variable inds : list nat.
  Hypothesis eps_pos : (0 < eps)%R.
  Hypothesis factor_pos : (0 < Rabs (c * kappa + eps))%R.
  Variable I : nat -> nat -> R.
  Variable ranges : list (Z * Z).
  Hypothesis ranges_ok : forall j, j < m -> (fst (nth j ranges (0, 0)) <= snd (nth j ranges (0, 0)))%Z.
  Hypothesis HI : forall x y, In x inds -> In y inds -> largest_gap eps m objv ranges x y (I x y).
  Hypothesis dim : all_dim m objv inds.
  Notation w := (fun x y => exp (- (I x y / Rabs (c * kappa + eps)))%R).

  Lemma den_pos lo hi : (lo <= hi)%Z -> (0 < IZR (hi - lo) + eps)%R.
  Proof. intros H. assert (0 <= IZR (hi - lo))%R by (apply IZR_le; lia). lra. Qed.

  Lemma ob_le x y j : In x inds -> In y inds -> no_worse (objv x) (objv y) -> (ob objv j x <= ob objv j y)%Z.
  Proof.
    intros Hx Hy H. unfold ob. destruct (nth_error (objv x) j) as [a|] eqn:E.
    - destruct (nth_error (objv y) j) as [b|] eqn:E'.
      + rewrite (nth_error_nth _ _ _ E), (nth_error_nth _ _ _ E'). apply Forall2_nth_error in H. destruct H as (_ & H). eauto.
      + apply nth_error_None in E'. apply nth_error_Some' in E. rewrite (dim y Hy) in E'. rewrite (dim x Hx) in E. lia.
    - apply nth_error_None in E. rewrite !nth_overflow; [lia | |lia]. rewrite (dim y Hy). now rewrite (dim x Hx) in E.
  Qed.

  Lemma scaled_le lo hi a b : (lo <= hi)%Z -> (a <= b)%Z ->
    (IZR (a - lo) / (IZR (hi - lo) + eps) <= IZR (b - lo) / (IZR (hi - lo) + eps))%R.
  Proof.
    intros H Hab. pose proof (den_pos lo hi H). unfold Rdiv. apply Rmult_le_compat_r.
    - left. now apply Rinv_0_lt_compat.
    - apply IZR_le. lia.
  Qed.
  Lemma scaled_lt lo hi a b : (lo <= hi)%Z -> (a < b)%Z ->
    (IZR (a - lo) / (IZR (hi - lo) + eps) < IZR (b - lo) / (IZR (hi - lo) + eps))%R.
  Proof.
    intros H Hab. pose proof (den_pos lo hi H). unfold Rdiv. apply Rmult_lt_compat_r.
    - now apply Rinv_0_lt_compat.
    - apply IZR_lt. lia.
  Qed.

  Lemma range_le o S lo hi : objective_range o S lo hi -> (lo <= hi)%Z.
  Proof. intros ((x & Hx & <-) & _ & M). specialize (M x Hx). lia. Qed.

  Lemma w_le x y x' y' : (I x' y' <= I x y)%R -> (w x y <= w x' y')%R.
  Proof.
    intros H. destruct (Rle_lt_or_eq_dec _ _ H) as [H'|H'].
    - left. apply exp_increasing. apply Ropp_lt_contravar. unfold Rdiv. apply Rmult_lt_compat_r; [|exact H'].
      now apply Rinv_0_lt_compat.
    - rewrite H'. lra.
  Qed.

  Lemma dominating_fitter S x y : incl S inds -> NoDup S -> In x S -> In y S -> pareto_dom (objv x) (objv y) ->
    (indicator_fitness w S y < indicator_fitness w S x)%R.
  Proof.
    intros HS ND Hx Hy (Hnw & Hb).
    assert (Hne : x <> y).
    { intros ->. destruct Hb as (i & a & b & Ha & Hb' & Hlt). rewrite Ha in Hb'. injection Hb' as <-. lia. }
    destruct (in_split _ _ Hx) as (l1 & l2 & E).
    assert (P1 : Permutation S (x :: l1 ++ l2)) by (rewrite E; apply Permutation_sym, Permutation_middle).
    assert (Hy' : In y (l1 ++ l2)).
    { apply (Permutation_in _ P1) in Hy. destruct Hy as [Hy|Hy]; [congruence | exact Hy]. }
    destruct (in_split _ _ Hy') as (l3 & l4 & E').
    assert (P2 : Permutation S (x :: y :: l3 ++ l4)) by (rewrite P1, E'; constructor; apply Permutation_sym, Permutation_middle).
    set (T := l3 ++ l4) in *.
    assert (ND2 : NoDup (x :: y :: T)) by (eapply Permutation_NoDup; [exact P2 | exact ND]).
    inversion ND2 as [|? ? N1 ND3]; subst. inversion ND3 as [|? ? N2 ND4]; subst.
    rewrite !(indicator_fitness_perm _ _ _ _ P2).
    rewrite indicator_fitness_self. rewrite (indicator_fitness_cons _ x) by auto. rewrite (indicator_fitness_cons _ y T x) by auto.
    rewrite indicator_fitness_self.
    assert (Hxi : In x inds) by auto. assert (Hyi : In y inds) by auto.
    assert (L1 : (indicator_fitness w T y <= indicator_fitness w T x)%R).
    { apply indicator_fitness_le; [intro; apply N1; now right | exact N2 |]. intros z Hz. apply w_le.
      assert (Hzi : In z inds) by (apply HS; apply (Permutation_in _ (Permutation_sym P2)); right; now right).
      destruct (HI z x Hzi Hxi) as (_ & HM). destruct (HI z y Hzi Hyi) as ((j & Hj & Ev) & _).
      rewrite Ev. specialize (HM j Hj). pose proof (ranges_ok j Hj) as HR. unfold gap in *. destruct (nth j ranges (0, 0)%Z) as (lo, hi). cbn [fst snd] in HR.
      pose proof (scaled_le lo hi _ _ HR (ob_le x y j Hxi Hyi Hnw)). lra. }
    assert (L2 : (w y x < w x y)%R).
    { apply exp_increasing. apply Ropp_lt_contravar. unfold Rdiv. apply Rmult_lt_compat_r; [now apply Rinv_0_lt_compat|].
      apply Rle_lt_trans with 0%R.
      - destruct (HI x y Hxi Hyi) as ((j & Hj & Ev) & _). rewrite Ev. pose proof (ranges_ok j Hj) as HR. unfold gap in *. destruct (nth j ranges (0, 0)%Z) as (lo, hi). cbn [fst snd] in HR.
        pose proof (scaled_le lo hi _ _ HR (ob_le x y j Hxi Hyi Hnw)). lra.
      - destruct Hb as (j & a & b & Ha & Hb & Hlt).
        assert (Hj : j < m) by (rewrite <- (dim x Hxi); now apply nth_error_Some' in Ha).
        destruct (HI y x Hyi Hxi) as (_ & HM). specialize (HM j Hj). pose proof (ranges_ok j Hj) as HR. unfold gap in *. destruct (nth j ranges (0, 0)%Z) as (lo, hi). cbn [fst snd] in HR.
        assert (Ho : (ob objv j x < ob objv j y)%Z) by (unfold ob; rewrite (nth_error_nth _ _ _ Ha), (nth_error_nth _ _ _ Hb); exact Hlt).
        pose proof (scaled_lt lo hi _ _ HR Ho). lra. }
    lra.
  Qed.

  Lemma removals_perm v S rs T : removals v S rs T -> Permutation S (rs ++ T).
  Proof.
    induction 1 as [S T HP|S r S' rs T HP HM HR IH]; [exact HP|]. rewrite HP. cbn. now constructor.
  Qed.

  Lemma removed_not_dominating S rs T : incl S inds -> NoDup S -> removals w S rs T ->
    forall r s, In r rs -> In s T -> ~ pareto_dom (objv r) (objv s).
  Proof.
    intros HS ND HR. induction HR as [S T HP|S r S' rs T HP HM HR IH]; intros q s Hq Hs Hd; [destruct Hq|].
    assert (ND' : NoDup (r :: S')) by (eapply Permutation_NoDup; eauto). inversion ND' as [|? ? N1 N2]; subst.
    assert (HS' : incl S' inds) by (intros z Hz; apply HS; apply (Permutation_in _ (Permutation_sym HP)); now right).
    destruct Hq as [<-|Hq]; [|now apply (IH HS' N2 q s Hq Hs)].
    assert (Hs' : In s S).
    { apply (Permutation_in _ (Permutation_sym HP)). right. apply (Permutation_in _ (Permutation_sym (removals_perm _ _ _ _ HR))).
      apply in_or_app. now right. }
    assert (Hr' : In r S) by (apply (Permutation_in _ (Permutation_sym HP)); now left).
    pose proof (dominating_fitter S r s HS ND Hr' Hs' Hd). specialize (HM s Hs'). cbv beta in *. lra.
  Qed.
End Dominance.

Lemma select_within_keeps_dominating eps kappa m objv ranges size inds :
  1 <= m -> inds <> [] -> NoDup inds -> (0 < eps)%R -> (0 <= kappa)%R -> all_dim m objv inds ->
  (forall j, j < m -> (fst (nth j ranges (0, 0)) <= snd (nth j ranges (0, 0)))%Z) ->
  exists surv fit rs, select_within eps kappa m objv ranges size inds = Some (surv, fit, rs) /\
    Permutation inds (rs ++ surv) /\
    forall r s, In r rs -> In s surv -> ~ pareto_dom (objv r) (objv s).
Proof.
  intros Hm Hne ND He Hk Hd HR.
  destruct (select_within_spec eps kappa m objv ranges size inds Hm Hne ND) as (surv & fit & rs & I & c & E & HI & Hc & HRm & _).
  exists surv, fit, rs. split; [exact E|]. split; [eapply removals_perm; eauto|].
  eapply removed_not_dominating with (eps := eps) (kappa := kappa) (c := c) (inds := inds) (I := I) (m := m) (ranges := ranges);
    eauto using incl_refl.
  assert (0 <= c * kappa)%R by now apply Rmult_le_pos. rewrite Rabs_right; lra.
Qed.

Lemma select_keeps_dominating eps kappa m objv size inds :
  1 <= m -> inds <> [] -> NoDup inds -> (0 < eps)%R -> (0 <= kappa)%R -> all_dim m objv inds ->
  exists surv fit rs, select eps kappa m objv size inds = Some (surv, fit, rs) /\
    Permutation inds (rs ++ surv) /\
    forall r s, In r rs -> In s surv -> ~ pareto_dom (objv r) (objv s).
Proof.
  intros Hm Hne ND He Hk Hd. unfold select. destruct (measured_spec m objv inds Hne) as (ranges & -> & HR).
  apply select_within_keeps_dominating; auto. intros j Hj. eapply range_le; eauto.
Qed.

(** ---- cost and run ---- *)
Definition charged_again (fa : option (list (vec * vec))) (i : ind_ibea) : bool :=
  negb (ib_known i) || negb (in_archive fa (ib_v i)).

Lemma charge_fold fa l : forall done c tr,
  fold_left (charge_one fa) l (done, (c, tr)) =
  (done ++ map (fun i => mk_ibea (ib_v i) true) l,
   (c + length (filter (charged_again fa) l), tr ++ filter (charged_again fa) l)).
Proof.
  induction l as [|i l IH]; intros done c tr; cbn [fold_left map filter].
  - rewrite !app_nil_r. cbn. now rewrite Nat.add_0_r.
  - assert (E : charge_one fa (done, (c, tr)) i =
                if charged_again fa i then (done ++ [mk_ibea (ib_v i) true], (S c, tr ++ [i]))
                else (done ++ [mk_ibea (ib_v i) true], (c, tr))) by reflexivity.
    rewrite E. clear E. destruct (charged_again fa i).
    + rewrite IH. rewrite <- !app_assoc. cbn [app length]. f_equal. f_equal. lia.
    + rewrite IH. rewrite <- !app_assoc. reflexivity.
Qed.

Lemma scale_objectives_spec fa s : exists newly,
  newly = filter (fun i => negb (ib_known i) || negb (in_archive fa (ib_v i))) (ib_individuals s) /\
  ib_individuals (scale_objectives fa s) = map (fun i => mk_ibea (ib_v i) true) (ib_individuals s) /\
  ib_charged (scale_objectives fa s) = ib_charged s ++ newly /\
  ib_cost (scale_objectives fa s) = ib_cost s + length newly /\
  ib_size (scale_objectives fa s) = ib_size s /\ ib_mating (scale_objectives fa s) = ib_mating s.
Proof.
  eexists. split; [reflexivity|]. unfold scale_objectives. rewrite charge_fold. cbn. repeat split; reflexivity.
Qed.

Section IbeaRun.
  Variable P : ibea_params.
  Notation Q := (ip P).
  Hypothesis box_ok : valid_box (p_dims Q).
  Hypothesis trim_ok : forall v, in_box (p_dims Q) v -> in_box (p_dims Q) (p_trim Q v).
  Hypothesis m_ok : 1 <= p_m Q.
  Hypothesis eps_ok : (0 <= p_epsilon Q)%Z.
  Variables N M : nat.
  Hypothesis N_ok : 1 <= N.

  (** [fresh]: number of unknown individuals met so far; [all]: number of individuals met in
      all rounds so far. *)
  Definition ibea_inv (size fresh all : nat) (s : ibea_state) : Prop :=
    length (ib_individuals s) = size /\ ib_size s = N /\ ib_mating s = M /\
    Forall (fun i => in_box (p_dims Q) (ib_v i) /\ ib_known i = true) (ib_individuals s) /\
    fresh <= ib_cost s <= all /\ ib_cost s = length (ib_charged s) /\
    (ip_fa P = None -> ib_cost s = all) /\
    ((forall v, in_box (p_dims Q) v -> in_archive (ip_fa P) v = true) -> ib_cost s = fresh).

  Lemma known_all_charged l : ip_fa P = None -> filter (charged_again (ip_fa P)) l = l.
  Proof. intros ->. apply filter_all. intros i _. unfold charged_again. cbn. now rewrite orb_true_r. Qed.

  Lemma charged_count known new :
    Forall (fun i => in_box (p_dims Q) (ib_v i) /\ ib_known i = true) known ->
    Forall (fun i => in_box (p_dims Q) (ib_v i) /\ ib_known i = false) new ->
    let k := length (filter (charged_again (ip_fa P)) (known ++ new)) in
    length new <= k <= length known + length new /\
    (ip_fa P = None -> k = length known + length new) /\
    ((forall v, in_box (p_dims Q) v -> in_archive (ip_fa P) v = true) -> k = length new).
  Proof.
    intros HK HN k.
    assert (En : filter (charged_again (ip_fa P)) new = new).
    { apply filter_all. intros i Hi. rewrite Forall_forall in HN. destruct (HN i Hi) as (_ & E). unfold charged_again. now rewrite E. }
    unfold k. rewrite filter_app, app_length, En. pose proof (filter_length_le (charged_again (ip_fa P)) known).
    split; [lia|]. split.
    - intros Hn. rewrite known_all_charged by exact Hn. reflexivity.
    - intros Ha. rewrite filter_none; [reflexivity|]. intros i Hi. rewrite Forall_forall in HK. destruct (HK i Hi) as (B & E).
      unfold charged_again. rewrite E, (Ha _ B). reflexivity.
  Qed.

  Lemma scale_inv size fresh all known new s :
    ib_individuals s = known ++ new -> ib_size s = N -> ib_mating s = M -> length known + length new = size ->
    Forall (fun i => in_box (p_dims Q) (ib_v i) /\ ib_known i = true) known ->
    Forall (fun i => in_box (p_dims Q) (ib_v i) /\ ib_known i = false) new ->
    fresh <= ib_cost s <= all -> ib_cost s = length (ib_charged s) ->
    (ip_fa P = None -> ib_cost s = all) ->
    ((forall v, in_box (p_dims Q) v -> in_archive (ip_fa P) v = true) -> ib_cost s = fresh) ->
    ibea_inv size (fresh + length new) (all + size) (scale_objectives (ip_fa P) s).
  Proof.
    intros E1 E2 E3 E4 HK HN H1 H2 H3 H4.
    destruct (scale_objectives_spec (ip_fa P) s) as (newly & En & S1 & S2 & S3 & S4 & S5).
    destruct (charged_count known new HK HN) as (C1 & C2 & C3). rewrite <- E1 in C1, C2, C3.
    change (filter (charged_again (ip_fa P)) (ib_individuals s)) with (filter (fun i => negb (ib_known i) || negb (in_archive (ip_fa P) (ib_v i))) (ib_individuals s)) in C1, C2, C3.
    rewrite <- En in C1, C2, C3.
    unfold ibea_inv. rewrite S1, S2, S3, S4, S5, map_length, E1, app_length.
    split; [exact E4|]. split; [exact E2|]. split; [exact E3|]. split.
    { apply Forall_forall. intros i Hi. apply in_map_iff in Hi. destruct Hi as (j & <- & Hj). cbn. split; [|reflexivity].
      apply in_app_or in Hj. rewrite Forall_forall in HK, HN. destruct Hj as [Hj|Hj]; [now apply HK | now apply HN]. }
    split; [lia|]. split; [rewrite app_length; lia|]. split; [intros Hn; rewrite (H3 Hn), (C2 Hn); lia|].
    intros Ha. rewrite (H4 Ha), (C3 Ha). lia.
  Qed.

  Lemma ibea_select_ok size fresh all s : ibea_inv size fresh all s -> N <= size ->
    exists surv fit, ibea_select P s = Some (surv, fit) /\ length surv = N /\ NoDup surv /\ Forall (fun x => x < size) surv.
  Proof.
    intros (I1 & I2 & I3 & _) HN. unfold ibea_select. rewrite I1, I2.
    destruct (select_spec (ip_eps P) (ip_kappa P) (p_m Q) (fun x => p_f Q (ib_vec (ib_individuals s) x)) N (seq 0 size))
      as (surv & fit & rs & I & c & -> & _ & _ & _ & _ & L & ND & HI).
    - exact m_ok.
    - destruct size; [lia | discriminate].
    - apply seq_NoDup.
    - exists surv, fit. split; [reflexivity|]. rewrite seq_length in L. split; [lia|]. split; [exact ND|].
      apply Forall_forall. intros x Hx. apply HI, in_seq in Hx. lia.
  Qed.

  Lemma ib_vec_box size fresh all s x : ibea_inv size fresh all s -> x < size ->
    in_box (p_dims Q) (ib_v (nth x (ib_individuals s) (mk_ibea [] false))) /\ ib_known (nth x (ib_individuals s) (mk_ibea [] false)) = true.
  Proof.
    intros (I1 & _ & _ & I4 & _) Hx. rewrite Forall_forall in I4. apply I4, nth_In. lia.
  Qed.

  Lemma kept_ok size fresh all s surv : ibea_inv size fresh all s -> Forall (fun x => x < size) surv ->
    Forall (fun i => in_box (p_dims Q) (ib_v i) /\ ib_known i = true)
           (map (fun x => nth x (ib_individuals s) (mk_ibea [] false)) surv).
  Proof.
    intros HI Hs. apply Forall_forall. intros i Hi. apply in_map_iff in Hi. destruct Hi as (x & <- & Hx).
    rewrite Forall_forall in Hs. eapply ib_vec_box; eauto.
  Qed.

  Lemma ibea_mating_ok D fit surv : surv <> [] ->
    exists mating, ibea_mating D fit surv M = Some mating /\ length mating = 2 * M /\ incl mating surv.
  Proof.
    intros Hne. unfold ibea_mating.
    assert (RC : forall k, exists x, random_choice k surv = Some x /\ In x surv).
    { intros k. unfold random_choice. destruct surv as [|a l] eqn:E; [congruence|].
      destruct (nth_error (a :: l) (k mod length (a :: l))) as [x|] eqn:Ex.
      - exists x. split; [reflexivity|]. eapply nth_error_In; eauto.
      - apply nth_error_None in Ex. pose proof (Nat.mod_upper_bound k (length (a :: l)) ltac:(discriminate)). lia. }
    destruct (collect_map (fun k => match random_choice (choice D (2 * k)) surv, random_choice (choice D (2 * k + 1)) surv with
       | Some x1, Some x2 => Some (better fit (coin D k) x1 x2) | _, _ => None end) (fun _ x => In x surv) (seq 0 (2 * M)))
      as (mating & -> & HF).
    { intros k _. destruct (RC (choice D (2 * k))) as (x1 & -> & I1), (RC (choice D (2 * k + 1))) as (x2 & -> & I2).
      eexists. split; [reflexivity|]. unfold better.
      destruct (coin D k); [destruct (Rlt_dec (fit x1) (fit x2)) | destruct (Rlt_dec (fit x2) (fit x1))]; assumption. }
    exists mating. split; [reflexivity|]. split.
    - apply Forall2_length' in HF. rewrite seq_length in HF. lia.
    - intros x Hx. destruct (Forall2_In_r _ _ _ _ HF Hx) as (i & _ & Hi). exact Hi.
  Qed.

  Lemma ibea_child_ok D size fresh all s mating i : ibea_inv size fresh all s ->
    length mating = 2 * M -> Forall (fun x => x < size) mating -> i < M ->
    exists c, ibea_child Q D (ib_individuals s) mating M i = Some c /\ in_box (p_dims Q) (ib_v c) /\ ib_known c = false.
  Proof.
    intros HI HL HF Hi. unfold ibea_child.
    destruct (nth_error mating i) as [a|] eqn:Ea; [|apply nth_error_None in Ea; lia].
    destruct (nth_error mating (M + i)) as [b|] eqn:Eb; [|apply nth_error_None in Eb; lia].
    rewrite Forall_forall in HF.
    pose proof (proj1 (ib_vec_box _ _ _ _ a HI (HF a (nth_error_In _ _ Ea)))) as Va.
    pose proof (proj1 (ib_vec_box _ _ _ _ b HI (HF b (nth_error_In _ _ Eb)))) as Vb.
    fold (ib_vec (ib_individuals s) a) in Va. fold (ib_vec (ib_individuals s) b) in Vb.
    destruct (crossover_genes (p_raw_a Q) (p_raw_b Q) (cx_skip D i) (cx_rand D i) (cx_swap D i) (p_half Q) (p_epsilon Q)
                (cx_r0 D i) (p_crossover_rate Q) (cx_pick D i) (ib_vec (ib_individuals s) a) (ib_vec (ib_individuals s) b) (p_dims Q) eps_ok box_ok)
      as (x & -> & _ & _ & _ & Bx).
    { now apply in_box_length in Va. } { now apply in_box_length in Vb. }
    destruct (mutate_in_box (p_raw Q) (mu_sel D i) (mu_rnd D i) (p_mutation_rate Q) x (p_dims Q) box_ok (Bx Va Vb)) as (y & -> & By).
    eexists. split; [reflexivity|]. cbn. auto.
  Qed.

  Lemma ibea_step_ok D size fresh all s : ibea_inv size fresh all s -> N <= size ->
    exists s', ibea_step P D s = Some s' /\ ibea_inv (N + M) (fresh + M) (all + (N + M)) s'.
  Proof.
    intros HI HN. unfold ibea_step. destruct (ibea_select_ok size fresh all s HI HN) as (surv & fit & -> & Ls & _ & Fs).
    destruct HI as (I1 & I2 & I3 & I4 & I5 & I6 & I7 & I8) eqn:EHI. rewrite I3.
    destruct (ibea_mating_ok D fit surv) as (mating & -> & Lm & Im); [intros ->; cbn in Ls; lia|].
    assert (Fm : Forall (fun x => x < size) mating) by (apply Forall_forall; intros x Hx; rewrite Forall_forall in Fs; auto).
    destruct (collect_map (ibea_child Q D (ib_individuals s) mating M) (fun _ c => in_box (p_dims Q) (ib_v c) /\ ib_known c = false) (seq 0 M))
      as (children & -> & HC).
    { intros i Hi. apply in_seq in Hi. apply (ibea_child_ok D size fresh all s mating i HI Lm Fm). lia. }
    eexists. split; [reflexivity|].
    assert (LC : length children = M) by (apply Forall2_length' in HC; rewrite seq_length in HC; lia).
    pose proof (scale_inv (N + M) fresh all
      (map (fun x => nth x (ib_individuals s) (mk_ibea [] false)) surv) children
      (ib_with s (map (fun x => nth x (ib_individuals s) (mk_ibea [] false)) surv ++ children))) as G.
    rewrite LC in G. rewrite map_length in G. cbn [ib_with ib_individuals ib_size ib_mating ib_cost ib_charged] in G.
    apply G; auto; try (rewrite Ls; lia).
    - apply (kept_ok size fresh all s surv HI Fs).
    - apply Forall_forall. intros c Hc. destruct (Forall2_In_r _ _ _ _ HC Hc) as (i & _ & Hi). exact Hi.
  Qed.

  Lemma ibea_finish_ok size fresh all s : ibea_inv size fresh all s -> N <= size ->
    exists s' out, ibea_finish P s = Some (s', out) /\ ibea_inv N fresh (all + size) s' /\
      length out = N /\ Forall (in_box (p_dims Q)) out.
  Proof.
    intros HI HN. unfold ibea_finish.
    assert (HI1 : ibea_inv size fresh (all + size) (scale_objectives (ip_fa P) s)).
    { destruct HI as (I1 & I2 & I3 & I4 & I5 & I6 & I7 & I8).
      pose proof (scale_inv size fresh all (ib_individuals s) [] s) as G. cbn [length] in G. rewrite !Nat.add_0_r in G.
      apply G; auto. now rewrite app_nil_r. }
    set (s1 := scale_objectives (ip_fa P) s) in *.
    destruct (ibea_select_ok size fresh (all + size) s1 HI1 HN) as (surv & fit & -> & Ls & _ & Fs).
    eexists. eexists. split; [reflexivity|].
    pose proof (kept_ok size fresh (all + size) s1 surv HI1 Fs) as K.
    split; [|split].
    - destruct HI1 as (I1 & I2 & I3 & I4 & I5 & I6 & I7 & I8). unfold ibea_inv. cbn. rewrite map_length. repeat split; auto; lia.
    - now rewrite !map_length.
    - apply Forall_forall. intros v Hv. apply in_map_iff in Hv. destruct Hv as (i & <- & Hi). rewrite Forall_forall in K. now apply K.
  Qed.

  Lemma ibea_ops_ok ops : forall size fresh all s, ibea_inv size fresh all s -> N <= size ->
    exists s' size', ibea_ops P s ops = Some s' /\ N <= size' /\
      ibea_inv size' (fresh + steps_of ops * M) (all + met N M size ops) s'.
  Proof.
    induction ops as [|o ops IH]; intros size fresh all s HI HN; cbn [ibea_ops met steps_of].
    - exists s, size. cbn. rewrite !Nat.add_0_r. auto.
    - destruct o as [D|]; cbn [ibea_op].
      + destruct (ibea_step_ok D size fresh all s HI HN) as (s' & -> & HI').
        destruct (IH (N + M) (fresh + M) (all + (N + M)) s' HI' ltac:(lia)) as (s'' & size' & -> & Hs & HI'').
        exists s'', size'. split; [reflexivity|]. split; [exact Hs|].
        replace (fresh + S (steps_of ops) * M) with (fresh + M + steps_of ops * M) by lia.
        now rewrite Nat.add_assoc.
      + destruct (ibea_finish_ok size fresh all s HI HN) as (s' & out & -> & HI' & _).
        destruct (IH N fresh (all + size) s' HI' ltac:(lia)) as (s'' & size' & -> & Hs & HI'').
        exists s'', size'. split; [reflexivity|]. split; [exact Hs|]. now rewrite Nat.add_assoc.
  Qed.
End IbeaRun.

Lemma ibea_run P mating population ops :
  valid_box (p_dims (ip P)) -> (forall v, in_box (p_dims (ip P)) v -> in_box (p_dims (ip P)) (p_trim (ip P) v)) ->
  1 <= p_m (ip P) -> (0 <= p_epsilon (ip P))%Z ->
  Forall (in_box (p_dims (ip P))) population -> population <> [] ->
  let N := length population in let M := mating N in
  exists s, ibea_ops P (ibea_init P mating population) ops = Some s /\
    Forall (fun i => in_box (p_dims (ip P)) (ib_v i)) (ib_individuals s) /\
    ib_cost s = length (ib_charged s) /\
    N + steps_of ops * M <= ib_cost s <= N + met N M N ops /\
    (ip_fa P = None -> ib_cost s = N + met N M N ops) /\
    ((forall v, in_box (p_dims (ip P)) v -> in_archive (ip_fa P) v = true) -> ib_cost s = N + steps_of ops * M) /\
    exists s' out, ibea_finish P s = Some (s', out) /\ length out = N /\ Forall (in_box (p_dims (ip P))) out.
Proof.
  intros A B C D E F N M.
  assert (HN : 1 <= N) by (unfold N; destruct population; [congruence | cbn; lia]).
  pose (s0 := {| ib_individuals := map (fun x => mk_ibea (p_trim (ip P) x) false) population;
                 ib_size := N; ib_mating := M; ib_cost := 0; ib_charged := [] |}).
  assert (E0 : ibea_init P mating population = scale_objectives (ip_fa P) s0).
  { unfold ibea_init, s0, N, M. rewrite map_length. reflexivity. }
  assert (HI : ibea_inv P N M N N N (ibea_init P mating population)).
  { rewrite E0.
    pose proof (scale_inv P C N M HN N 0 0 [] (ib_individuals s0) s0) as G. 
    assert (L0 : length (ib_individuals s0) = N) by apply map_length. rewrite L0 in G. cbn [Nat.add] in G.
    apply G; auto; try (cbn; lia).
    apply Forall_forall. intros i Hi. apply in_map_iff in Hi. destruct Hi as (v & <- & Hv). cbn. split; [|reflexivity].
    apply B. rewrite Forall_forall in E. auto. }
  destruct (ibea_ops_ok P A B C D N M HN ops N N N _ HI (le_n N)) as (s & size' & Es & Hs & HI').
  destruct (ibea_finish_ok P C N M HN size' _ _ s HI' Hs) as (s' & out & Ef & _ & Lo & Bo).
  destruct HI' as (I1 & I2 & I3 & I4 & I5 & I6 & I7 & I8).
  exists s. split; [exact Es|]. split; [eapply Forall_impl; [|exact I4]; cbn; tauto|].
  split; [exact I6|]. split; [exact I5|]. split; [exact I7|]. split; [exact I8|].
  exists s', out. auto.
Qed.

Lemma better_spec fitness x1 x2 :
  (better fitness true x1 x2 = x1 \/ better fitness true x1 x2 = x2) /\
  (fitness (better fitness true x1 x2) = Rmin (fitness x1) (fitness x2)) /\
  (fitness (better fitness false x1 x2) = Rmax (fitness x1) (fitness x2)).
Proof.
  unfold better, Rmin, Rmax.
  destruct (Rlt_dec (fitness x1) (fitness x2)), (Rlt_dec (fitness x2) (fitness x1)),
    (Rle_dec (fitness x1) (fitness x2)); repeat split; auto; lra.
Qed.
