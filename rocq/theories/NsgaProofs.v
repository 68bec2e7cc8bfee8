From Verif Require Import Spec VarSpec Base DomModel DomProofs NDSortModel NDSortProofs VarModel VarProofs
  SortModel SortProofs NsgaModel NsgaSpec.
From Coq Require Import QArith Lqa.
Local Open Scope nat_scope.

(** ---- crowding ---- *)
Definition grows (f : list nat) (d d' : nat -> dist) : Prop :=
  forall x, (~ In x f -> d' x = d x) /\ (d x = Inf -> d' x = Inf) /\
            (forall q, d x = Fin q -> exists q', d' x = Fin q' /\ (q <= q')%Q).

Lemma grows_refl f d : grows f d d.
Proof. intros x. repeat split; auto. intros q H. exists q. split; auto. apply Qle_refl. Qed.

Lemma grows_trans f d d' d'' : grows f d d' -> grows f d' d'' -> grows f d d''.
Proof.
  intros H1 H2 x. destruct (H1 x) as (A1 & B1 & C1), (H2 x) as (A2 & B2 & C2).
  split; [|split].
  - intros Hx. rewrite A2, A1; auto.
  - auto.
  - intros q Hq. destruct (C1 q Hq) as (q' & Hq' & L1). destruct (C2 q' Hq') as (q'' & Hq'' & L2).
    exists q''. split; auto. eapply Qle_trans; eauto.
Qed.

Lemma grows_add f d x q : In x f -> (0 <= q)%Q -> grows f d (upd d x (dist_add (d x) q)).
Proof.
  intros Hx Hq y. destruct (Nat.eq_dec y x) as [->|Hne].
  - rewrite upd_same. split; [tauto|]. split; [intros ->; auto|].
    intros p ->. simpl. exists (p + q)%Q. split; auto. lra.
  - rewrite upd_other by auto. repeat split; auto. intros p Hp. exists p. split; auto. apply Qle_refl.
Qed.

Lemma inner_gaps_grows obj f j den inds : (0 < den)%Q -> forall d,
  StronglySorted (fun a b => (objective obj j a <=? objective obj j b)%Z = true) inds ->
  incl inds f ->
  grows f d (inner_gaps obj j den inds d).
Proof.
  intros Hden. induction inds as [|p inds IH]; intros d Hs HI; [apply grows_refl|].
  destruct inds as [|c [|n inds]]; try apply grows_refl.
  cbn [inner_gaps].
  apply grows_trans with
    (upd d c (dist_add (d c) (inject_Z (objective obj j n - objective obj j p)%Z / den)%Q)).
  - apply grows_add; [apply HI; simpl; auto|].
    assert (Hle : (objective obj j p <= objective obj j n)%Z).
    { inversion Hs; subst. rewrite Forall_forall in H2. apply Z.leb_le, H2. simpl; auto. }
    apply Qle_shift_div_l; auto. rewrite Qmult_0_l.
    change 0%Q with (inject_Z 0). rewrite <- Zle_Qle. lia.
  - apply IH.
    + now inversion Hs.
    + intros z Hz. apply HI. now right.
Qed.

Lemma list_two_last {A} (l : list A) : 2 <= length l -> exists l0 b z, l = l0 ++ [b; z].
Proof.
  intros H. destruct (exists_last (l := l)) as (l1 & z & ->).
  { intros ->. simpl in H. lia. }
  rewrite app_length in H. simpl in H.
  destruct (exists_last (l := l1)) as (l0 & b & ->).
  { intros ->. simpl in H. lia. }
  exists l0, b, z. now rewrite <- app_assoc.
Qed.

Definition crowd_inv (obj : nat -> vec) (f : list nat) (d0 : nat -> dist) (J : list nat)
           (st : list nat * (nat -> dist)) : Prop :=
  Permutation (fst st) f /\
  (forall x, ~ In x f -> snd st x = d0 x) /\
  (forall x, In x f -> crowd_nonneg (snd st x)) /\
  (forall x, In x f -> snd st x = Inf -> exists j, In j J /\ best_in obj j f x) /\
  (forall j, In j J -> exists x, best_in obj j f x /\ snd st x = Inf).

Lemma crowd_objective_inv eps obj f d0 J st j :
  (0 < eps)%Q -> 2 <= length f ->
  crowd_inv obj f d0 J st -> crowd_inv obj f d0 (J ++ [j]) (crowd_objective eps obj st j).
Proof.
  intros Heps Hlen (HP & Hout & Hnn & Hinf & Hbest).
  destruct st as [inds0 d]. cbn [fst snd] in *. unfold crowd_objective.
  set (le := fun a b => (objective obj j a <=? objective obj j b)%Z).
  set (inds := stable_sort le inds0).
  assert (HPi : Permutation inds f) by (unfold inds; rewrite stable_sort_perm; auto).
  assert (Hs : StronglySorted (fun a b => le a b = true) inds).
  { apply (stable_sort_sorted le (fun _ => True)); auto.
    - intros a b _ _. unfold le. rewrite Z.leb_gt, Z.leb_le. lia.
    - intros a b c _ _ _. unfold le. rewrite !Z.leb_le. lia.
    - apply Forall_forall; auto. }
  assert (Hl : 2 <= length inds) by (rewrite (Permutation_length HPi); auto).
  assert (Hfb : best_in obj j f (hd 0 inds)).
  { destruct inds as [|a inds'] eqn:E; [simpl in Hl; lia|]. cbn [hd]. split.
    - eapply Permutation_in; [exact HPi|now left].
    - intros y Hy. eapply Permutation_in in Hy; [|apply Permutation_sym; exact HPi].
      inversion Hs; subst. destruct Hy as [<-|Hy]; [lia|].
      rewrite Forall_forall in H2. specialize (H2 y Hy). unfold le, objective in H2.
      apply Z.leb_le in H2. auto. }
  set (first := hd 0 inds) in *.
  destruct (list_two_last inds Hl) as (l0 & b & z & Einds).
  assert (Elast : last inds 0 = z).
  { rewrite Einds. change [b; z] with ([b] ++ [z]). rewrite app_assoc, last_last. reflexivity. }
  assert (Ebl : last (removelast inds) 0 = b).
  { rewrite Einds. change [b; z] with ([b] ++ [z]). rewrite app_assoc, removelast_last, last_last.
    reflexivity. }
  rewrite Elast, Ebl.
  assert (Hzin : In z f).
  { eapply Permutation_in; [exact HPi|]. rewrite Einds. apply in_or_app. simpl. auto. }
  assert (Hbz : (objective obj j b <= objective obj j z)%Z).
  { rewrite Einds in Hs. change (l0 ++ [b; z]) with (l0 ++ [b] ++ [z]) in Hs. rewrite app_assoc in Hs.
    apply Z.leb_le. apply (StronglySorted_app_inv _ _ _ Hs b z); [apply in_or_app; simpl; auto|simpl; auto]. }
  assert (Hfz : (objective obj j first <= objective obj j z)%Z) by (apply Hfb; auto).
  set (den := (inject_Z (objective obj j z - objective obj j first)%Z + eps)%Q).
  assert (Hden : (0 < den)%Q).
  { unfold den. assert (0 <= inject_Z (objective obj j z - objective obj j first))%Q.
    { change 0%Q with (inject_Z 0). rewrite <- Zle_Qle. lia. } lra. }
  set (d1 := upd d first Inf).
  set (d2 := upd d1 z (dist_add (d1 z) (2 * inject_Z (objective obj j z - objective obj j b)%Z / den)%Q)).
  assert (G : grows f d1 (inner_gaps obj j den inds d2)).
  { apply grows_trans with d2.
    - unfold d2. apply grows_add; auto. apply Qle_shift_div_l; auto. rewrite Qmult_0_l.
      assert (0 <= inject_Z (objective obj j z - objective obj j b))%Q.
      { change 0%Q with (inject_Z 0). rewrite <- Zle_Qle. lia. } lra.
    - apply inner_gaps_grows; auto. intros x Hx. eapply Permutation_in; eauto. }
  set (d' := inner_gaps obj j den inds d2) in *.
  assert (Hfin : In first f) by apply Hfb.
  unfold crowd_inv. cbn [fst snd]. split; [auto|]. split; [|split; [|split]].
  - intros x Hx. destruct (G x) as (A & _ & _). rewrite A by auto. unfold d1.
    rewrite upd_other; auto. intros ->. auto.
  - intros x Hx. destruct (G x) as (_ & B & C). destruct (d1 x) as [|q] eqn:E.
    + rewrite B; simpl; auto.
    + destruct (C q eq_refl) as (q' & -> & L). simpl. unfold d1 in E.
      destruct (Nat.eq_dec x first) as [->|Hne]; [rewrite upd_same in E; discriminate|].
      rewrite upd_other in E by auto. specialize (Hnn x Hx). rewrite E in Hnn. simpl in Hnn.
      eapply Qle_trans; eauto.
  - intros x Hx Hxi. destruct (Nat.eq_dec x first) as [->|Hne].
    + exists j. split; [apply in_or_app; simpl; auto|auto].
    + destruct (G x) as (_ & _ & C). destruct (d x) as [|q] eqn:E.
      * destruct (Hinf x Hx E) as (j' & Hj' & Hb'). exists j'. split; [apply in_or_app; auto|auto].
      * assert (E1 : d1 x = Fin q) by (unfold d1; rewrite upd_other by auto; auto).
        destruct (C q E1) as (q' & Hq' & _). congruence.
  - intros j' Hj'. apply in_app_or in Hj'. destruct Hj' as [Hj'|[<-|[]]].
    + destruct (Hbest j' Hj') as (x & Hb' & Hxi). exists x. split; auto.
      destruct (G x) as (_ & B & _). apply B. unfold d1.
      destruct (Nat.eq_dec x first) as [->|Hne]; [apply upd_same|]. rewrite upd_other; auto.
    + exists first. split; auto. destruct (G first) as (_ & B & _). apply B. apply upd_same.
Qed.

Lemma crowd_fold_inv eps obj f d0 js : (0 < eps)%Q -> 2 <= length f -> forall J st,
  crowd_inv obj f d0 J st ->
  crowd_inv obj f d0 (J ++ js) (fold_left (crowd_objective eps obj) js st).
Proof.
  intros He Hl. induction js as [|j js IH]; intros J st H; simpl.
  - now rewrite app_nil_r.
  - replace (J ++ j :: js) with ((J ++ [j]) ++ js) by now rewrite <- app_assoc.
    apply IH. apply crowd_objective_inv; auto.
Qed.

(** Distances a single front ends up with. *)
Definition front_dist_ok (obj : nat -> vec) (m : nat) (f : list nat) (d : nat -> dist) : Prop :=
  (forall x, In x f -> crowd_nonneg (d x)) /\
  (2 <= length f ->
     (forall x, In x f -> d x = Inf -> exists j, j < m /\ best_in obj j f x) /\
     (forall j, j < m -> exists x, best_in obj j f x /\ d x = Inf)) /\
  (forall x, f = [x] -> d x = Fin 0).

Lemma crowd_front_ok eps obj m d f :
  (0 < eps)%Q -> (forall x, In x f -> d x = Fin 0) ->
  front_dist_ok obj m f (crowd_front eps obj m d f) /\
  (forall x, ~ In x f -> crowd_front eps obj m d f x = d x).
Proof.
  intros He Hz. destruct f as [|a [|b f']].
  - split; [|auto]. split; [intros x []|split; [simpl; lia|discriminate]].
  - simpl. split.
    + split; [|split].
      * intros x [<-|[]]. rewrite upd_same. simpl. lra.
      * simpl. lia.
      * intros x E. injection E as <-. apply upd_same.
    + intros x Hx. apply upd_other. intros ->. apply Hx. auto.
  - set (f := a :: b :: f') in *.
    assert (Hl : 2 <= length f) by (unfold f; simpl; lia).
    assert (E : crowd_front eps obj m d f = snd (fold_left (crowd_objective eps obj) (seq 0 m) (f, d)))
      by reflexivity.
    assert (H0 : crowd_inv obj f d [] (f, d)).
    { split; [apply Permutation_refl|]. cbn [fst snd]. split; [auto|]. split; [|split].
      - intros x Hx. rewrite Hz by auto. simpl. lra.
      - intros x Hx Hi. rewrite Hz in Hi by auto. discriminate.
      - intros j []. }
    pose proof (crowd_fold_inv eps obj f d (seq 0 m) He Hl [] (f, d) H0) as (_ & Ho & Hn & Hi & Hb).
    rewrite <- E in *. cbn [app] in *. split; [|auto]. split; [auto|]. split.
    + intros _. split.
      * intros x Hx HxI. destruct (Hi x Hx HxI) as (j & Hj & Hbj). exists j. split; auto.
        apply in_seq in Hj. lia.
      * intros j Hj. apply Hb. apply in_seq. lia.
    + intros x Ex. unfold f in Ex. discriminate.
Qed.

Lemma crowding_fold_ok eps obj m fronts : (0 < eps)%Q -> NoDup (concat fronts) ->
  forall d, (forall x, In x (concat fronts) -> d x = Fin 0) ->
  Forall (fun f => front_dist_ok obj m f (fold_left (crowd_front eps obj m) fronts d)) fronts /\
  (forall x, ~ In x (concat fronts) -> fold_left (crowd_front eps obj m) fronts d x = d x).
Proof.
  intros He. induction fronts as [|f fs IH]; intros Hnd d Hz; [split; [constructor|auto]|].
  cbn [concat fold_left] in *.
  assert (Hnf : NoDup (concat fs)).
  { clear -Hnd. induction f; auto. inversion Hnd; auto. }
  assert (Hdis : forall x, In x f -> ~ In x (concat fs)).
  { clear -Hnd. induction f as [|a f IHf]; intros x Hx Hc; [destruct Hx|].
    simpl in Hnd. inversion Hnd; subst. destruct Hx as [<-|Hx]; [|eapply IHf; eauto].
    apply H1. apply in_or_app. auto. }
  destruct (crowd_front_ok eps obj m d f He) as [Hok Hout].
  { intros x Hx. apply Hz. apply in_or_app. auto. }
  destruct (IH Hnf (crowd_front eps obj m d f)) as [H1 H2].
  { intros x Hx. rewrite Hout; [apply Hz; apply in_or_app; auto|].
    intros Hf. exact (Hdis x Hf Hx). }
  split.
  - constructor; auto.
    destruct Hok as (A & B & C). set (D := fold_left (crowd_front eps obj m) fs (crowd_front eps obj m d f)) in *.
    assert (ED : forall x, In x f -> D x = crowd_front eps obj m d f x) by (intros x Hx; apply H2; auto).
    split; [|split].
    + intros x Hx. rewrite ED by auto. auto.
    + intros Hl. destruct (B Hl) as [B1 B2]. split.
      * intros x Hx. rewrite ED by auto. auto.
      * intros j Hj. destruct (B2 j Hj) as (x & Hb & Hi). exists x. split; auto.
        rewrite ED; auto. apply Hb.
    + intros x Hx. rewrite ED; [auto|]. rewrite Hx. now left.
  - intros x Hx. rewrite in_app_iff in Hx. rewrite H2 by tauto. apply Hout. tauto.
Qed.

Lemma crowding_ok eps obj m fronts : (0 < eps)%Q -> NoDup (concat fronts) ->
  forall f, In f fronts -> front_dist_ok obj m f (crowding eps obj m fronts).
Proof.
  intros He Hnd f Hf. unfold crowding.
  destruct (crowding_fold_ok eps obj m fronts He Hnd (fun _ => Fin 0)) as [H _]; auto.
  rewrite Forall_forall in H. auto.
Qed.

Lemma crowding_nonneg eps obj m fronts : (0 < eps)%Q -> NoDup (concat fronts) ->
  forall x, crowd_nonneg (crowding eps obj m fronts x).
Proof.
  intros He Hnd x. unfold crowding.
  destruct (crowding_fold_ok eps obj m fronts He Hnd (fun _ => Fin 0)) as [H H0]; auto.
  destruct (in_dec Nat.eq_dec x (concat fronts)) as [i|n].
  - apply in_concat in i. destruct i as (f & Hf & Hx). rewrite Forall_forall in H.
    destruct (H f Hf) as (A & _ & _). auto.
  - rewrite H0 by auto. simpl. lra.
Qed.

(** ---- environmental selection ---- *)
Lemma key_le_spec a b :
  key_le a b = true <-> fst a < fst b \/ (fst a = fst b /\ (snd a <= snd b)%Q).
Proof.
  unfold key_le. rewrite orb_true_iff, andb_true_iff, Nat.ltb_lt, Nat.eqb_eq, Qle_bool_iff. tauto.
Qed.

Lemma key_le_total a b : key_le a b = false -> key_le b a = true.
Proof.
  intros H. apply key_le_spec. apply not_true_iff_false in H. rewrite key_le_spec in H.
  destruct (lt_eq_lt_dec (fst a) (fst b)) as [[L|E]|G]; [tauto| |auto].
  right. split; auto. destruct (Qlt_le_dec (snd b) (snd a)) as [L|L]; [apply Qlt_le_weak; auto|].
  exfalso. apply H. auto.
Qed.

Lemma key_le_trans a b c : key_le a b = true -> key_le b c = true -> key_le a c = true.
Proof.
  rewrite !key_le_spec. intros [H1|[H1 H2]] [H3|[H3 H4]]; try (left; lia).
  right. split; [congruence|]. eapply Qle_trans; eauto.
Qed.

Lemma key_le_meaning eps rank d x y :
  (0 < eps)%Q -> crowd_nonneg (d x) -> crowd_nonneg (d y) ->
  key_le (fitness_key eps rank d x) (fitness_key eps rank d y) = true ->
  rank x < rank y \/ (rank x = rank y /\ crowd_ge (d x) (d y)).
Proof.
  intros He Hx Hy. rewrite key_le_spec. unfold fitness_key. cbn [fst snd].
  intros [H|[H1 H2]]; [auto|right]. split; auto.
  destruct (d x) as [|p], (d y) as [|q]; cbn [crowd_ge crowd_nonneg] in *; auto.
  - assert (0 < 1 / (p + eps))%Q.
    { apply Qlt_shift_div_l; lra. }
    lra.
  - assert (P : (0 < p + eps)%Q) by lra. assert (R : (0 < q + eps)%Q) by lra.
    assert (E : (1 / (p + eps) * ((p + eps) * (q + eps)) == q + eps)%Q) by (field; lra).
    assert (F : (1 / (q + eps) * ((p + eps) * (q + eps)) == p + eps)%Q) by (field; lra).
    assert (H0 : (0 <= (p + eps) * (q + eps))%Q) by (apply Qmult_le_0_compat; lra).
    pose proof (Qmult_le_compat_r _ _ _ H2 H0) as H3. rewrite E, F in H3. lra.
Qed.

Lemma environmental_selection_spec eps rank d size inds :
  (0 < eps)%Q -> (forall x, In x inds -> crowd_nonneg (d x)) ->
  exists dropped,
    Permutation (environmental_selection eps rank d size inds ++ dropped) inds /\
    length (environmental_selection eps rank d size inds) = Nat.min size (length inds) /\
    forall x y, In x (environmental_selection eps rank d size inds) -> In y dropped ->
      rank x < rank y \/ (rank x = rank y /\ crowd_ge (d x) (d y)).
Proof.
  intros He Hnn. unfold environmental_selection.
  set (le := fun a b => key_le (fitness_key eps rank d a) (fitness_key eps rank d b)).
  set (l := stable_sort le inds).
  assert (HP : Permutation l inds) by apply stable_sort_perm.
  exists (skipn size l). split; [now rewrite firstn_skipn|].
  split; [now rewrite firstn_length, (Permutation_length HP)|].
  intros x y Hx Hy.
  assert (Hs : StronglySorted (fun a b => le a b = true) l).
  { apply (stable_sort_sorted le (fun _ => True)); try (apply Forall_forall; auto).
    - intros a b _ _. apply key_le_total.
    - intros a b c _ _ _. apply key_le_trans. }
  rewrite <- (firstn_skipn size l) in Hs.
  pose proof (StronglySorted_app_inv _ _ _ Hs x y Hx Hy) as H.
  assert (forall z, In z (firstn size l) \/ In z (skipn size l) -> In z inds).
  { intros z Hz. eapply Permutation_in; [exact HP|]. rewrite <- (firstn_skipn size l).
    apply in_or_app. auto. }
  apply (key_le_meaning eps); auto.
Qed.

(** ---- the driver ---- *)
Lemma collect_map {A B} (g : A -> option B) (R : A -> B -> Prop) l :
  (forall x, In x l -> exists y, g x = Some y /\ R x y) ->
  exists r, collect (map g l) = Some r /\ Forall2 R l r.
Proof.
  induction l as [|a l IH]; intros H; simpl.
  - exists []. auto.
  - destruct (H a (or_introl eq_refl)) as (y & -> & HR).
    destruct IH as (r & -> & HF); [intros x Hx; apply H; now right|].
    exists (y :: r). auto.
Qed.

Definition archive_ok (P : params) (ar : option (list (vec * vec))) : Prop :=
  forall m k o, ar = Some m -> lookup k m = Some o -> o = p_f P k.

Definition cached_ok (P : params) (i : indiv) : Prop :=
  iobj i = None \/ iobj i = Some (p_f P (iv i)).

Definition unevaluated (l : list indiv) : list indiv :=
  filter (fun i => match iobj i with None => true | Some _ => false end) l.

Lemma evaluate_run P l : forall done c ar tr,
  archive_ok P ar -> Forall (cached_ok P) l ->
  exists l' new ar',
    fold_left (evaluate P) l (done, (c, ar, tr)) = (done ++ l', (c + length new, ar', tr ++ new)) /\
    Forall2 (fun i i' => iv i' = iv i /\ iobj i' = Some (p_f P (iv i))) l l' /\
    archive_ok P ar' /\
    (ar = None -> ar' = None /\ new = map iv (unevaluated l)) /\
    (forall m, ar = Some m ->
       exists m', ar' = Some m' /\ NoDup new /\ (forall v, In v new -> lookup v m = None) /\
                  (forall v, lookup v m' <> None <-> lookup v m <> None \/ In v new)).
Proof.
  induction l as [|i l IH]; intros done c ar tr Har Hl; cbn [fold_left].
  - exists [], [], ar. rewrite !app_nil_r. cbn [length]. rewrite Nat.add_0_r.
    split; [auto|]. split; [constructor|]. split; [auto|]. split; [auto|].
    intros m ->. exists m. split; [auto|]. split; [constructor|]. split; [intros v []|].
    intros v. simpl. tauto.
  - inversion Hl as [|? ? Hi Hl']; subst. unfold evaluate at 2.
    destruct (iobj i) as [o|] eqn:Eo.
    + destruct (IH (done ++ [i]) c ar tr Har Hl') as (l' & new & ar' & H1 & H2 & H3 & H4 & H5).
      exists (i :: l'), new, ar'. rewrite H1, <- app_assoc. split; [auto|].
      split; [constructor; auto; split; auto; destruct Hi; congruence|].
      split; [auto|]. split; [|auto].
      intros E. destruct (H4 E) as [E1 E2]. split; auto. unfold unevaluated in *. cbn [filter].
      rewrite Eo. auto.
    + destruct (match ar with Some m => lookup (iv i) m | None => None end) as [o|] eqn:Elk.
      * destruct (IH (done ++ [mk_indiv (iv i) (Some o)]) c ar tr Har Hl')
          as (l' & new & ar' & H1 & H2 & H3 & H4 & H5).
        exists (mk_indiv (iv i) (Some o) :: l'), new, ar'. rewrite H1, <- app_assoc. split; [auto|].
        destruct ar as [m|]; [|discriminate].
        split; [constructor; auto; cbn [iv iobj]; split; auto; f_equal; apply (Har m); auto|].
        split; [auto|]. split; [discriminate|auto].
      * set (ar1 := match ar with Some m => Some ((iv i, p_f P (iv i)) :: m) | None => None end).
        assert (Har1 : archive_ok P ar1).
        { intros m k o Em Hk. destruct ar as [m0|]; [|discriminate]. unfold ar1 in Em.
          injection Em as <-. simpl in Hk. destruct (vec_eqb k (iv i)) eqn:Ek.
          - apply vec_eqb_spec in Ek. injection Hk as <-. now subst.
          - apply (Har m0); auto. }
        destruct (IH (done ++ [mk_indiv (iv i) (Some (p_f P (iv i)))]) (S c) ar1 (tr ++ [iv i]) Har1 Hl')
          as (l' & new & ar' & H1 & H2 & H3 & H4 & H5).
        exists (mk_indiv (iv i) (Some (p_f P (iv i))) :: l'), (iv i :: new), ar'.
        rewrite H1, <- !app_assoc. cbn [length]. rewrite Nat.add_succ_comm.
        split; [auto|]. split; [constructor; auto|]. split; [auto|]. split.
        -- intros ->. destruct (H4 eq_refl) as [E1 E2]. split; auto. unfold unevaluated in *.
           cbn [filter]. rewrite Eo. cbn [map]. now f_equal.
        -- intros m ->. destruct (H5 ((iv i, p_f P (iv i)) :: m) eq_refl) as (m' & -> & Hnd & Hnew & Hm').
           exists m'. split; auto. split; [|split].
           ++ constructor; auto. intros Hin. specialize (Hnew _ Hin). simpl in Hnew.
              replace (vec_eqb (iv i) (iv i)) with true in Hnew; [discriminate|].
              symmetry. now apply vec_eqb_spec.
           ++ intros v [<-|Hv]; [auto|]. specialize (Hnew v Hv). simpl in Hnew.
              destruct (vec_eqb v (iv i)); [discriminate|auto].
           ++ intros v. rewrite Hm'. simpl. destruct (vec_eqb v (iv i)) eqn:Ev.
              ** apply vec_eqb_spec in Ev. split; intros _; [auto|]. left. discriminate.
              ** split; intros [H|H]; auto. destruct H as [H|H]; auto. exfalso. subst v.
                 assert (vec_eqb (iv i) (iv i) = true) by now apply vec_eqb_spec. congruence.
Qed.

Section Driver.
  Variable P : params.
  Hypothesis Hbox : valid_box (p_dims P).
  Hypothesis Htrim : forall v, in_box (p_dims P) v -> in_box (p_dims P) (p_trim P v).
  Hypothesis Hf : forall v, length (p_f P v) = p_m P.
  Hypothesis Hepsilon : (0 <= p_epsilon P)%Z.
  Hypothesis Heps : (0 < p_eps P)%Q.
  Hypothesis Hiter : forall x l, Permutation (p_iter P x l) l.

  Definition good (i : indiv) : Prop :=
    in_box (p_dims P) (iv i) /\ iobj i = Some (p_f P (iv i)).

  Lemma obj_at_good l i ind : Forall good l -> nth_error l i = Some ind ->
    obj_at l i = p_f P (iv ind).
  Proof.
    intros Hg Hn. unfold obj_at. rewrite Hn.
    rewrite Forall_forall in Hg. destruct (Hg ind) as [_ ->]; auto. eapply nth_error_In; eauto.
  Qed.

  (** What sort_and_select gives on an evaluated population. *)
  Lemma sort_and_select_ok s : Forall good (individuals s) ->
    exists surv fit dropped, sort_and_select P s = Some (surv, fit) /\
      Permutation (surv ++ dropped) (seq 0 (length (individuals s))) /\
      length surv = Nat.min (population_size s) (length (individuals s)) /\
      (forall x y, In x surv -> In y dropped ->
         ~ pareto_dom (obj_at (individuals s) y) (obj_at (individuals s) x)).
  Proof.
    intros Hg. unfold sort_and_select. set (n := length (individuals s)).
    set (obj := obj_at (individuals s)).
    assert (Hd : all_dim (p_m P) obj (seq 0 n)).
    { intros x Hx. apply in_seq in Hx. unfold obj.
      destruct (nth_error (individuals s) x) as [ind|] eqn:E.
      - rewrite (obj_at_good _ _ ind Hg E). apply Hf.
      - apply nth_error_None in E. fold n in E. lia. }
    destruct (nsgaii_nd_sort_ok obj (p_m P) (p_iter P) (seq 0 n) Hiter (seq_NoDup n 0) Hd)
      as (fs & Hfs & HP & Hne & Hpeel).
    rewrite Hfs.
    assert (Hnd : NoDup (concat fs)).
    { eapply Permutation_NoDup; [apply Permutation_sym; exact HP|apply seq_NoDup]. }
    destruct (environmental_selection_spec (p_eps P) (front_number fs)
                (crowding (p_eps P) obj (p_m P) fs) (population_size s) (seq 0 n) Heps)
      as (dropped & HPd & Hlen & Hsel).
    { intros x _. apply crowding_nonneg; auto. }
    rewrite seq_length in Hlen.
    eexists _, _, dropped. split; [reflexivity|]. split; [auto|]. split; [auto|].
    intros x y Hx Hy Hdom.
    assert (Hrk : forall z, In z (seq 0 n) -> exists k f, nth_error fs k = Some f /\ In z f /\
                    front_number fs z = S k).
    { intros z Hz. eapply Permutation_in in Hz; [|apply Permutation_sym; exact HP].
      apply in_concat in Hz. destruct Hz as (f & Hff & Hzf). apply In_nth_error in Hff.
      destruct Hff as (k & Hk). exists k, f. repeat split; auto. unfold front_number.
      rewrite (front_number_from_spec fs 1 z Hnd k f); auto. }
    assert (Hxi : In x (seq 0 n)) by (eapply Permutation_in; [exact HPd|apply in_or_app; auto]).
    assert (Hyi : In y (seq 0 n)) by (eapply Permutation_in; [exact HPd|apply in_or_app; auto]).
    destruct (Hrk x Hxi) as (kx & fx & Hkx & Hxf & Ex).
    destruct (Hrk y Hyi) as (ky & fy & Hky & Hyf & Ey).
    pose proof (peeling_disjoint (fun a b => pareto_dom (obj a) (obj b)) (seq 0 n) fs Hpeel HP
                  kx fx x y Hkx Hxf Hyi Hdom) as Hin.
    apply in_concat_firstn in Hin. destruct Hin as (j & f & Hj & Hfj & Hyfj).
    assert (front_number fs y = S j).
    { unfold front_number. rewrite (front_number_from_spec fs 1 y Hnd j f); auto. }
    destruct (Hsel x y Hx Hy) as [H1|[H1 _]]; lia.
  Qed.

  Lemma select_positions_ok l pos : Forall (fun i => i < length l) pos ->
    exists r, select_positions l pos = Some r /\ length r = length pos /\ incl r l.
  Proof.
    intros H. unfold select_positions.
    destruct (collect_map (nth_error l) (fun _ y => In y l) pos) as (r & Hr & HF).
    - intros x Hx. rewrite Forall_forall in H. specialize (H x Hx).
      destruct (nth_error l x) as [a|] eqn:E; [|apply nth_error_None in E; lia].
      exists a. split; auto. eapply nth_error_In; eauto.
    - exists r. split; auto. split; [symmetry; eapply Forall2_length'; eauto|].
      clear -HF. induction HF; intros z Hz; [destruct Hz|]. destruct Hz as [<-|Hz]; auto.
  Qed.

  Lemma random_choice_ok k l : l <> [] -> exists x, random_choice k l = Some x /\ In x l.
  Proof.
    intros H. unfold random_choice. destruct l as [|a l]; [congruence|].
    destruct (nth_error (a :: l) (k mod length (a :: l))) as [x|] eqn:E.
    - exists x. split; auto. eapply nth_error_In; eauto.
    - apply nth_error_None in E. pose proof (Nat.mod_upper_bound k (length (a :: l))). simpl in *. lia.
  Qed.

  Lemma make_child_ok D pop mating M i :
    Forall good pop -> Forall (fun p => p < length pop) mating -> length mating = 2 * M -> i < M ->
    exists c, make_child P D pop mating M i = Some c /\ in_box (p_dims P) (iv c) /\ iobj c = None.
  Proof.
    intros Hg Hm HL Hi. unfold make_child.
    assert (G : forall k, k < 2 * M -> exists a ia, nth_error mating k = Some a /\
                nth_error pop a = Some ia /\ in_box (p_dims P) (iv ia)).
    { intros k Hk. destruct (nth_error mating k) as [a|] eqn:E; [|apply nth_error_None in E; lia].
      rewrite Forall_forall in Hm. specialize (Hm a (nth_error_In _ _ E)).
      destruct (nth_error pop a) as [ia|] eqn:E2; [|apply nth_error_None in E2; lia].
      exists a, ia. repeat split; auto. rewrite Forall_forall in Hg.
      apply (Hg ia). eapply nth_error_In; eauto. }
    destruct (G i) as (a & ia & -> & -> & Ba); [lia|].
    destruct (G (M + i)) as (b & ib & -> & -> & Bb); [lia|].
    destruct (crossover_genes (p_raw_a P) (p_raw_b P) (cx_skip D i) (cx_rand D i) (cx_swap D i)
                (p_half P) (p_epsilon P) (cx_r0 D i) (p_crossover_rate P) (cx_pick D i)
                (iv ia) (iv ib) (p_dims P) Hepsilon Hbox (in_box_length _ _ Ba) (in_box_length _ _ Bb))
      as (x & -> & _ & _ & _ & Hx).
    destruct (mutate_in_box (p_raw P) (mu_sel D i) (mu_rnd D i) (p_mutation_rate P) x (p_dims P)
                Hbox (Hx Ba Bb)) as (y & -> & By).
    eexists. split; [reflexivity|]. cbn [iv iobj]. auto.
  Qed.

  Lemma calculate_objectives_ok s :
    archive_ok P (archive s) -> Forall (cached_ok P) (individuals s) ->
    Forall (fun i => in_box (p_dims P) (iv i)) (individuals s) ->
    let s' := calculate_objectives P s in
    Forall good (individuals s') /\
    map iv (individuals s') = map iv (individuals s) /\
    population_size s' = population_size s /\ mating_size s' = mating_size s /\
    archive_ok P (archive s') /\
    exists new, evals s' = evals s ++ new /\ cost s' = cost s + length new /\
      (archive s = None -> archive s' = None /\ new = map iv (unevaluated (individuals s))) /\
      (forall m, archive s = Some m ->
         exists m', archive s' = Some m' /\ NoDup new /\ (forall v, In v new -> lookup v m = None) /\
                    (forall v, lookup v m' <> None <-> lookup v m <> None \/ In v new)).
  Proof.
    intros Har Hc Hb. unfold calculate_objectives.
    destruct (evaluate_run P (individuals s) [] (cost s) (archive s) (evals s) Har Hc)
      as (l' & new & ar' & -> & H2 & H3 & H4 & H5).
    cbn [app individuals population_size mating_size archive evals cost].
    assert (Hg : Forall good l' /\ map iv l' = map iv (individuals s)).
    { clear -H2 Hb. induction H2 as [|i i' l l' [E1 E2] H2 IH]; [split; auto|].
      inversion Hb; subst. destruct IH as [IH1 IH2]; auto. split.
      - constructor; auto. split; [rewrite E1; auto|rewrite E1; auto].
      - simpl. congruence. }
    destruct Hg as [Hg1 Hg2]. repeat split; auto. exists new. auto.
  Qed.

  Lemma unevaluated_none l : Forall good l -> unevaluated l = [].
  Proof.
    intros H. apply filter_none. intros i Hi. rewrite Forall_forall in H.
    destruct (H i Hi) as [_ ->]. reflexivity.
  Qed.

  Definition inv (N M : nat) (s : nstate) : Prop :=
    Forall good (individuals s) /\ population_size s = N /\ mating_size s = M /\
    N <= length (individuals s) /\ archive_ok P (archive s) /\ cost s = length (evals s).

  Lemma good_cached l : Forall good l -> Forall (cached_ok P) l.
  Proof. apply Forall_impl. intros i [_ H]. now right. Qed.
  Lemma good_box l : Forall good l -> Forall (fun i => in_box (p_dims P) (iv i)) l.
  Proof. apply Forall_impl. intros i [H _]. auto. Qed.

  Lemma positions_bound surv dropped n : Permutation (surv ++ dropped) (seq 0 n) ->
    Forall (fun i => i < n) surv.
  Proof.
    intros H. apply Forall_forall. intros x Hx.
    assert (In x (seq 0 n)) by (eapply Permutation_in; [exact H|apply in_or_app; auto]).
    apply in_seq in H0. lia.
  Qed.

  (** What one evaluation round adds to the trace: with no archive, exactly the given count;
      with an archive, distinct vectors that it did not hold before. *)
  Definition added (s s' : nstate) (n : nat) : Prop :=
    exists new, evals s' = evals s ++ new /\
      (archive s = None -> archive s' = None /\ length new = n) /\
      (forall m, archive s = Some m ->
         exists m', archive s' = Some m' /\ NoDup new /\ (forall v, In v new -> lookup v m = None) /\
                    (forall v, lookup v m' <> None <-> lookup v m <> None \/ In v new)).

  Lemma step_ok N M D s : 1 <= N -> inv N M s ->
    exists s', step P D s = Some s' /\ inv N M s' /\ length (individuals s') = N + M /\ added s s' M.
  Proof.
    intros HN (Hg & HsN & HsM & HL & Har & Hcost).
    destruct (sort_and_select_ok s Hg) as (surv & fit & dropped & Hss & HP & Hlen & _).
    unfold step. rewrite Hss, HsM.
    assert (Hls : length surv = N) by (rewrite Hlen, HsN; lia).
    assert (Hsb : Forall (fun i => i < length (individuals s)) surv) by (eapply positions_bound; eauto).
    assert (Hne : surv <> []) by (intros ->; simpl in Hls; lia).
    assert (Hmat : exists mating, mating_selection D fit surv M = Some mating /\
              length mating = 2 * M /\ Forall (fun p => p < length (individuals s)) mating).
    { unfold mating_selection.
      match goal with |- context [collect (map ?g ?l)] =>
        destruct (collect_map g (fun _ y => In y surv) l) as (r & Hr & HF) end.
      - intros k _. destruct (random_choice_ok (choice D (2 * k)) surv Hne) as (x1 & -> & H1).
        destruct (random_choice_ok (choice D (2 * k + 1)) surv Hne) as (x2 & -> & H2).
        eexists. split; [reflexivity|].
        destruct (coin D k), (key_lt (fit x1) (fit x2)), (key_lt (fit x2) (fit x1)); auto.
      - exists r. split; [exact Hr|]. split.
        + rewrite <- (Forall2_length' _ _ _ HF), seq_length. reflexivity.
        + apply Forall_forall. intros p Hp. rewrite Forall_forall in Hsb. apply Hsb.
          clear -HF Hp. induction HF; [destruct Hp|]. destruct Hp as [<-|Hp]; auto. }
    destruct Hmat as (mating & -> & Hml & Hmb).
    destruct (collect_map (make_child P D (individuals s) mating M)
                (fun _ c => in_box (p_dims P) (iv c) /\ iobj c = None) (seq 0 M))
      as (children & -> & HF).
    { intros i Hi. apply in_seq in Hi. destruct (make_child_ok D (individuals s) mating M i Hg Hmb Hml)
        as (c & Hc & Hc1 & Hc2); [lia|]. eauto. }
    assert (Hcl : length children = M) by (rewrite <- (Forall2_length' _ _ _ HF); apply seq_length).
    assert (Hch : Forall (fun c => in_box (p_dims P) (iv c) /\ iobj c = None) children).
    { clear -HF. induction HF; constructor; auto. }
    destruct (select_positions_ok (individuals s) surv Hsb) as (kept & -> & Hkl & Hki).
    assert (Hkg : Forall good kept) by (eapply Forall_incl; eauto).
    set (s1 := with_individuals s (kept ++ children)).
    destruct (calculate_objectives_ok s1) as (G1 & G2 & G3 & G4 & G5 & new & G6 & G7 & G8 & G9).
    { exact Har. }
    { unfold s1. cbn [with_individuals individuals]. apply Forall_app. split; [now apply good_cached|].
      eapply Forall_impl; [|exact Hch]. intros c [_ Hc]. now left. }
    { unfold s1. cbn [with_individuals individuals]. apply Forall_app. split; [now apply good_box|].
      eapply Forall_impl; [|exact Hch]. intros c [Hc _]. auto. }
    assert (HL1 : length (individuals (calculate_objectives P s1)) = N + M).
    { rewrite <- (map_length iv), G2, map_length. unfold s1. cbn [with_individuals individuals].
      rewrite app_length. lia. }
    eexists. split; [reflexivity|]. split; [|split; [exact HL1|]].
    - split; [auto|]. split; [rewrite G3; auto|]. split; [rewrite G4; auto|]. split; [lia|].
      split; [auto|]. rewrite G6, G7, app_length. unfold s1. cbn [with_individuals evals cost]. lia.
    - exists new. split; [exact G6|]. split; [|exact G9].
      intros Hn. destruct (G8 Hn) as [E1 E2]. split; auto. rewrite E2, map_length. unfold s1.
      cbn [with_individuals individuals]. unfold unevaluated. rewrite filter_app, app_length.
      change (length (unevaluated kept) + length (unevaluated children) = M).
      rewrite (unevaluated_none kept Hkg). cbn [length]. unfold unevaluated.
      rewrite filter_all; auto. intros c Hc. rewrite Forall_forall in Hch.
      destruct (Hch c Hc) as [_ ->]. reflexivity.
  Qed.

  Lemma finish_ok N M s : inv N M s ->
    exists s' out, finish P s = Some (s', out) /\ inv N M s' /\ length (individuals s') = N /\
      length out = N /\ Forall (in_box (p_dims P)) out /\ cost s' = cost s /\ evals s' = evals s /\
      archive s' = archive s.
  Proof.
    intros (Hg & HsN & HsM & HL & Har & Hcost). unfold finish.
    destruct (calculate_objectives_ok s Har (good_cached _ Hg) (good_box _ Hg))
      as (G1 & G2 & G3 & G4 & G5 & new & G6 & G7 & G8 & G9).
    assert (Hex : exists l', fold_left (evaluate P) (individuals s) ([], (cost s, archive s, evals s))
                   = (l', (cost s, archive s, evals s))).
    { clear -Hg. generalize (@nil indiv) as done.
      induction Hg as [|i l Hi Hg IH]; intros done; [eexists; reflexivity|].
      cbn [fold_left]. unfold evaluate at 2. destruct Hi as [_ Hi]. rewrite Hi. apply IH. }
    assert (Ecost : cost (calculate_objectives P s) = cost s /\
                    archive (calculate_objectives P s) = archive s /\
                    evals (calculate_objectives P s) = evals s).
    { unfold calculate_objectives. destruct Hex as (l' & ->). auto. }
    destruct Ecost as (EC & EA & EE).
    destruct (sort_and_select_ok (calculate_objectives P s) G1)
      as (surv & fit & dropped & Hss & HP & Hlen & _).
    rewrite Hss.
    assert (HLs : length (individuals (calculate_objectives P s)) = length (individuals s)).
    { rewrite <- (map_length iv), G2, map_length. reflexivity. }
    destruct (select_positions_ok (individuals (calculate_objectives P s)) surv) as (kept & Hk & Hkl & Hki).
    { eapply positions_bound; eauto. }
    rewrite Hk.
    assert (Hkg : Forall good kept) by (eapply Forall_incl; eauto).
    assert (HkN : length kept = N) by (rewrite Hkl, Hlen, G3, HLs, HsN; lia).
    eexists _, _. split; [reflexivity|]. cbn [with_individuals individuals cost evals archive].
    split; [|split; [auto|split; [now rewrite map_length|split; [|auto]]]].
    - unfold inv. cbn [with_individuals individuals cost evals archive population_size mating_size].
      split; [auto|]. split; [congruence|]. split; [congruence|]. split; [lia|]. split; [exact G5|].
      congruence.
    - apply Forall_map. now apply good_box.
  Qed.

  Lemma init_ok mating ar population :
    Forall (in_box (p_dims P)) population -> archive_ok P ar ->
    let s := init P mating ar population in
    inv (length population) (mating (length population)) s /\
    length (individuals s) = length population /\
    (ar = None -> archive s = None /\ cost s = length population) /\
    (forall m, ar = Some m -> exists m', archive s = Some m' /\ NoDup (evals s) /\
       (forall v, In v (evals s) -> lookup v m = None) /\
       (forall v, lookup v m' <> None <-> lookup v m <> None \/ In v (evals s))).
  Proof.
    intros Hb Har. unfold init.
    set (inds := map (fun x => mk_indiv (p_trim P x) None) population).
    set (s0 := {| individuals := inds; population_size := length inds;
                  mating_size := mating (length inds); cost := 0; archive := ar; evals := [] |}).
    assert (Hin : forall i, In i inds -> in_box (p_dims P) (iv i) /\ iobj i = None).
    { intros i Hi. apply in_map_iff in Hi. destruct Hi as (x & <- & Hx). cbn [iv iobj]. split; auto.
      apply Htrim. rewrite Forall_forall in Hb. auto. }
    destruct (calculate_objectives_ok s0) as (G1 & G2 & G3 & G4 & G5 & new & G6 & G7 & G8 & G9).
    { exact Har. }
    { apply Forall_forall. intros i Hi. left. apply Hin. exact Hi. }
    { apply Forall_forall. intros i Hi. apply Hin. exact Hi. }
    assert (Hli : length inds = length population) by apply map_length.
    assert (HL : length (individuals (calculate_objectives P s0)) = length population).
    { rewrite <- (map_length iv), G2, map_length. exact Hli. }
    cbv zeta. cbn [evals s0 app] in G6. split; [|split; [exact HL|split]].
    - split; [auto|]. split; [rewrite G3; exact Hli|]. split; [rewrite G4; cbn [s0 mating_size]; now rewrite Hli|].
      split; [lia|]. split; [auto|]. rewrite G6, G7. reflexivity.
    - intros ->. destruct (G8 eq_refl) as [E1 E2]. split; auto. rewrite G7, E2, map_length. cbn [cost s0].
      unfold unevaluated. rewrite filter_all; [cbn [s0 individuals]; lia|].
      intros i Hi. destruct (Hin i Hi) as [_ ->]. reflexivity.
    - intros m E. rewrite G6. exact (G9 m E).
  Qed.

  (** Runs. *)
  Definition fresh_evals (m0 : list (vec * vec)) (s : nstate) : Prop :=
    NoDup (evals s) /\ (forall v, In v (evals s) -> lookup v m0 = None) /\
    exists m, archive s = Some m /\ (forall v, lookup v m <> None <-> lookup v m0 <> None \/ In v (evals s)).

  Lemma added_fresh m0 s s' n : fresh_evals m0 s -> added s s' n -> fresh_evals m0 s'.
  Proof.
    intros (Hnd & Hv & m & Em & Hm) (new & En & _ & H). destruct (H m Em) as (m' & Em' & Hnd' & Hnew & Hm').
    unfold fresh_evals. rewrite En. split; [|split].
    - apply NoDup_app_disj; auto. intros v H1 H2. specialize (Hnew v H2).
      assert (lookup v m <> None) by (apply Hm; auto). congruence.
    - intros v Hin. apply in_app_or in Hin. destruct Hin as [Hin|Hin]; auto.
      specialize (Hnew v Hin). destruct (lookup v m0) eqn:E; auto. exfalso.
      assert (lookup v m <> None) by (apply Hm; left; congruence). congruence.
    - exists m'. split; auto. intros v. rewrite Hm', Hm, in_app_iff. tauto.
  Qed.

  Lemma run_ops_ok N M ops : 1 <= N -> forall s, inv N M s ->
    exists s', run_ops P s ops = Some s' /\ inv N M s' /\
      length (individuals s') =
        match rev ops with
        | [] => length (individuals s)
        | Step _ :: _ => N + M
        | Finalize :: _ => N
        end /\
      (archive s = None -> archive s' = None /\ cost s' = cost s + steps_in ops * M) /\
      (forall m0, fresh_evals m0 s -> fresh_evals m0 s').
  Proof.
    intros HN. induction ops as [|o ops IH]; intros s Hi; cbn [run_ops].
    - exists s. unfold steps_in. simpl. split; [auto|]. split; [auto|]. split; [auto|]. split; [|auto]. intros H; split; [auto|]. lia.
    - assert (Hop : exists s1, run_op P s o = Some s1 /\ inv N M s1 /\
                length (individuals s1) = (if is_step o then N + M else N) /\
                (archive s = None -> archive s1 = None /\
                   cost s1 = cost s + (if is_step o then M else 0)) /\
                (forall m0, fresh_evals m0 s -> fresh_evals m0 s1)).
      { destruct o as [D|]; cbn [run_op is_step].
        - destruct (step_ok N M D s HN Hi) as (s1 & Hs & Hi1 & HL & Hadd). exists s1.
          split; [auto|]. split; [auto|]. split; [auto|]. split.
          + intros Hn. destruct Hadd as (new & En & H1 & _). destruct (H1 Hn) as [A1 A2]. split; auto.
            destruct Hi as (_ & _ & _ & _ & _ & Hc). destruct Hi1 as (_ & _ & _ & _ & _ & Hc1).
            rewrite Hc1, En, app_length. lia.
          + intros m0. intros Hfr. eapply added_fresh; eauto.
        - destruct (finish_ok N M s Hi) as (s1 & out & Hs & Hi1 & HL & _ & _ & EC & EE & EA).
          rewrite Hs. exists s1. split; [auto|]. split; [auto|]. split; [auto|]. split.
          + intros Hn. rewrite EA. split; auto. lia.
          + intros m0 (A & B & C). unfold fresh_evals. rewrite EE, EA. auto. }
      destruct Hop as (s1 & Hs1 & Hi1 & HL1 & Hc1 & Hf1). rewrite Hs1.
      destruct (IH s1 Hi1) as (s' & Hs' & Hi' & HL' & Hc' & Hf').
      exists s'. split; [auto|]. split; [auto|]. split; [|split].
      + rewrite HL'. cbn [rev]. destruct (rev ops) as [|o' r] eqn:E; cbn [app].
        * rewrite HL1. destruct o; reflexivity.
        * reflexivity.
      + intros Hn. destruct (Hc1 Hn) as [A1 A2]. destruct (Hc' A1) as [B1 B2]. split; auto.
        rewrite B2, A2. unfold steps_in. cbn [filter]. destruct (is_step o); cbn [length]; lia.
      + auto.
  Qed.

  Lemma nsga_run mating population ops :
    Forall (in_box (p_dims P)) population -> population <> [] ->
    let N := length population in
    let M := mating N in
    exists s, run_ops P (init P mating None population) ops = Some s /\
      Forall (fun i => in_box (p_dims P) (iv i) /\ iobj i = Some (p_f P (iv i))) (individuals s) /\
      length (individuals s) =
        match rev ops with Step _ :: _ => N + M | _ => N end /\
      cost s = length (evals s) /\
      cost s = N + steps_in ops * M /\
      exists s' out, finish P s = Some (s', out) /\ length out = N /\
        Forall (in_box (p_dims P)) out /\ cost s' = cost s.
  Proof.
    intros Hb Hne N M.
    destruct (init_ok mating None population Hb) as (Hi & HL & Hc & _); [intros m k o; discriminate|].
    destruct (Hc eq_refl) as [Ha Hcost].
    assert (HN : 1 <= N) by (unfold N; destruct population; [congruence|simpl; lia]).
    destruct (run_ops_ok N M ops HN _ Hi) as (s & Hs & Hi' & HL' & Hc' & _).
    destruct (Hc' Ha) as [_ Hcs].
    exists s. split; [auto|]. split; [apply Hi'|]. split.
    { rewrite HL'. destruct (rev ops) as [|[D|] r]; auto. }
    split; [apply Hi'|]. split; [rewrite Hcs, Hcost; reflexivity|].
    destruct (finish_ok N M s Hi') as (s' & out & H1 & _ & _ & H2 & H3 & H4 & _).
    exists s', out. auto.
  Qed.

  Lemma nsga_run_archive mating m0 population ops :
    Forall (in_box (p_dims P)) population -> population <> [] ->
    (forall k o, lookup k m0 = Some o -> o = p_f P k) ->
    exists s m, run_ops P (init P mating (Some m0) population) ops = Some s /\
      Forall (fun i => in_box (p_dims P) (iv i) /\ iobj i = Some (p_f P (iv i))) (individuals s) /\
      cost s = length (evals s) /\
      NoDup (evals s) /\
      (forall v, In v (evals s) -> lookup v m0 = None) /\
      archive s = Some m /\
      (forall v, lookup v m <> None <-> lookup v m0 <> None \/ In v (evals s)) /\
      (forall v o, lookup v m = Some o -> o = p_f P v).
  Proof.
    intros Hb Hne Hm0.
    destruct (init_ok mating (Some m0) population Hb) as (Hi & HL & _ & Hc).
    { intros m k o E Hk. injection E as <-. auto. }
    destruct (Hc m0 eq_refl) as (m1 & E1 & Hnd & Hv & Hm1).
    assert (HN : 1 <= length population) by (destruct population; [congruence|simpl; lia]).
    destruct (run_ops_ok _ _ ops HN _ Hi) as (s & Hs & Hi' & _ & _ & Hfr).
    destruct (Hfr m0) as (F1 & F2 & m & Em & F3).
    { split; [auto|]. split; [auto|]. exists m1. auto. }
    exists s, m. split; [auto|]. split; [apply Hi'|]. split; [apply Hi'|].
    repeat split; auto; try apply F3. intros v o Hk.
    destruct Hi' as (_ & _ & _ & _ & Har & _). eapply Har; eauto.
  Qed.
End Driver.
