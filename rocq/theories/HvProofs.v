(** Exactness of the hypervolume recursion. *)
From Verif Require Import Spec Base SortModel SortProofs HvSpec HvModel HvMeasure HvLinks.
Local Open Scope nat_scope.

(** ** Lists *)

Definition inb (y : nat) (P : list nat) : bool := existsb (Nat.eqb y) P.

Lemma inb_In y P : inb y P = true <-> In y P.
Proof.
  unfold inb. rewrite existsb_exists. split.
  - intros (x & Hx & He). apply Nat.eqb_eq in He. subst. exact Hx.
  - intros H. exists y. split; [exact H | apply Nat.eqb_refl].
Qed.

Definition restrict (P : list nat) (l : list nat) : list nat := filter (fun y => inb y P) l.

Lemma restrict_snoc P x l : NoDup l -> In x l -> ~ In x P ->
  exists X Y, restrict (P ++ [x]) l = X ++ x :: Y /\ restrict P l = X ++ Y.
Proof.
  intros Hnd Hx HP. apply in_split in Hx. destruct Hx as (l1 & l2 & ->).
  exists (restrict P l1), (restrict P l2).
  apply NoDup_remove_2 in Hnd.
  assert (Hext : forall m, incl m (l1 ++ l2) -> restrict (P ++ [x]) m = restrict P m).
  { intros m Hm. apply filter_ext_In. intros y Hy.
    destruct (inb y P) eqn:E.
    - apply inb_In. apply in_or_app. left. apply inb_In. exact E.
    - destruct (inb y (P ++ [x])) eqn:E'; [|reflexivity].
      apply inb_In in E'. apply in_app_or in E'. destruct E' as [E'|[E'|[]]].
      + apply inb_In in E'. congruence.
      + subst. exfalso. apply Hnd. apply Hm. exact Hy. }
  split; unfold restrict at 1; rewrite filter_app; cbn [filter].
  - replace (inb x (P ++ [x])) with true; [|symmetry; apply inb_In, in_or_app; right; left; reflexivity].
    fold (restrict (P ++ [x]) l1) (restrict (P ++ [x]) l2).
    rewrite !Hext; [reflexivity| |]; intros y Hy; apply in_or_app; auto.
  - destruct (inb x P) eqn:E; [|reflexivity]. apply inb_In in E. contradiction.
Qed.

Lemma restrict_perm P l : NoDup l -> NoDup P -> incl P l -> Permutation (restrict P l) P.
Proof.
  intros Hl HP Hi. apply NoDup_Permutation; [apply NoDup_filter; exact Hl | exact HP|].
  intros y. unfold restrict. rewrite filter_In, inb_In. split; [tauto|]. intros H. split; [apply Hi, H | exact H].
Qed.

Lemma restrict_all l P : incl l P -> restrict P l = l.
Proof. intros H. apply filter_all. intros y Hy. apply inb_In, H, Hy. Qed.

Lemma app_split {T} (B : list T) : forall q C X Y, B ++ q :: C = X ++ Y ->
  (exists C', X = B ++ q :: C') \/ In q Y.
Proof.
  induction B as [|b B IH]; intros q C X Y H; cbn in H.
  - destruct X as [|x X]; cbn in H.
    + right. rewrite <- H. left. reflexivity.
    + inversion H; subst. left. exists X. reflexivity.
  - destruct X as [|x X]; cbn in H.
    + right. rewrite <- H. right. apply in_or_app. right. left. reflexivity.
    + inversion H; subst. destruct (IH _ _ _ _ H2) as [[C' ->]|Hr]; [left; exists C'; reflexivity | right; exact Hr].
Qed.

Lemma StronglySorted_filter {T} (R : T -> T -> Prop) f l : StronglySorted R l -> StronglySorted R (filter f l).
Proof.
  induction 1 as [|a l Hs IH Hf]; [constructor|]. cbn. destruct (f a); [|exact IH]. constructor; [exact IH|].
  rewrite Forall_forall in *. intros x Hx. apply filter_In in Hx. apply Hf, Hx.
Qed.

Lemma last_snoc_default {T} (l : list T) x d : last (l ++ [x]) d = x.
Proof. apply last_last. Qed.

Section Exact.
  Variable pts : list vec.
  Variables D L : nat.
  Notation c := (coord pts).
  Notation VV := (V (coord pts) L).
  Notation WW := (W (coord pts) L).

  Definition valid (y : nat) : Prop := 1 <= y <= length pts.

  Hypothesis Hdim : Forall (fun p => length p = D) pts.
  Hypothesis Hrange : forall y i, valid y -> i < D -> (- Z.of_nat L <= c i y <= 0)%Z.

  (** The order of list j: by coordinate j, then j-1, ..., then 0, then by node number. *)
  Fixpoint order (k : nat) (a b : nat) : Prop :=
    match k with
    | O => a < b
    | S j => (c j a < c j b)%Z \/ (c j a = c j b /\ order j a b)
    end.
  Definition before (j a b : nat) : Prop := order (S j) a b.

  Lemma before_le j a b : before j a b -> (c j a <= c j b)%Z.
  Proof. cbn. lia. Qed.

  Lemma order_irrefl k a : ~ order k a a.
  Proof. induction k as [|k IH]; cbn; [lia|]. intros [H|[_ H]]; [lia | exact (IH H)]. Qed.

  Lemma order_asym k a b : order k a b -> order k b a -> False.
  Proof. induction k as [|k IH]; cbn; [lia|]. intros [H|[H1 H2]] [K|[K1 K2]]; try lia. exact (IH H2 K2). Qed.

  (** Strictly inside the reference point; a node that comes before another one in list d and is
      not worse in the dimensions below d comes before it in all the lists below d, too. *)
  Definition GP : Prop :=
    (forall y i, valid y -> i < D -> (c i y < 0)%Z) /\
    (forall p q d, valid p -> valid q -> d < D -> before d p q -> (forall i, i < d -> (c i p <= c i q)%Z) ->
       forall j, j <= d -> before j p q).

  Lemma cargo_valid y : valid y -> exists v, cargo pts y = Some v /\ length v = D.
  Proof.
    intros H. destruct y as [|y]; [unfold valid in H; lia|]. cbn.
    destruct (nth_error pts y) as [v|] eqn:E.
    - exists v. split; [reflexivity|]. rewrite Forall_forall in Hdim. apply Hdim.
      apply nth_error_In' in E. exact E.
    - apply nth_error_None in E. unfold valid in H. lia.
  Qed.

  Lemma cg_valid y i : valid y -> i < D -> cg pts y i = Some (c i y).
  Proof.
    intros H Hi. unfold coord. destruct (cg pts y i) eqn:E; [reflexivity|].
    unfold cg in E. destruct (cargo_valid y H) as (v & Hv & Hl). rewrite Hv in E.
    apply nth_error_None in E. lia.
  Qed.

  Definition sortedc (j : nat) (A : list nat) : Prop := StronglySorted (fun a b => (c j a <= c j b)%Z) A.

  Definition ordered (j : nat) (A : list nat) : Prop := StronglySorted (before j) A.

  Lemma ordered_sortedc j A : ordered j A -> sortedc j A.
  Proof.
    induction 1 as [|a l Hs IH Hf]; constructor; [exact IH|].
    rewrite Forall_forall in *. intros x Hx. apply before_le, Hf, Hx.
  Qed.

  (** A member of [S] comes before [y] in all the lists 0..d. *)
  Definition SD (d y : nat) (S : list nat) : Prop :=
    exists y', In y' S /\ forall j, j <= d -> before j y' y.

  (** The lists 0..d hold the same nodes, each sorted by its dimension. *)
  Record fam (A : nat -> list nat) (d : nat) (S : list nat) : Prop := {
    f_dim : d < D;
    f_perm : forall j, j <= d -> Permutation (A j) S;
    f_order : forall j, j <= d -> ordered j (A j);
    f_nodup : NoDup S;
    f_valid : forall y, In y S -> valid y
  }.

  Lemma f_sorted A d S : fam A d S -> forall j, j <= d -> sortedc j (A j).
  Proof. intros HF j Hj. apply ordered_sortedc, (f_order _ _ _ HF j Hj). Qed.

  Definition Cached (j : nat) (h : heap) (l : list nat) : Prop :=
    forall B q C, l = B ++ q :: C -> (c j q < bnd h j)%Z ->
      area h j q = VV j (B ++ [q]) /\ vol h j q = WW j B (c j q).

  Record pre (d : nat) (A : nat -> list nat) (h : heap) : Prop := {
    pr_fam : fam A d (A d);
    pr_links : forall j, j <= d -> linked (nx h j) (pv h j) (A j);
    pr_sent : forall j, area h j 0 = 0%Z;
    pr_cache : 2 <= length (A d) -> forall j, 2 <= j <= d -> Cached j h (A j);
    pr_flags : 2 <= d -> forall y, In y (A d) -> d <= ign h y -> SD d y (A d)
  }.

  Record post (d : nat) (A : nat -> list nat) (h h' : heap) : Prop := {
    po_links : leq (links_of h') (links_of h);
    po_sent : forall j, area h' j 0 = 0%Z;
    po_cache : forall j, 2 <= j <= d -> Cached j h' (A j);
    po_area : forall j y, d < j -> area h' j y = area h j y;
    po_vol : forall j y, d < j -> vol h' j y = vol h j y;
    po_bnd : forall j, d < j -> bnd h' j = bnd h j;
    po_ign_out : forall y, ~ In y (A d) -> ign h' y = ign h y;
    po_ign_hi : forall y, d < ign h y -> ign h' y = ign h y;
    po_ign_lo : forall y, ign h y <= d -> ign h' y <= d;
    po_flags : GP -> 2 <= d -> forall y, In y (A d) -> d <= ign h' y -> SD d y (A d)
  }.

  Definition level_ok_at (d : nat) (A : nat -> list nat) : Prop := forall h, pre d A h -> A d <> [] ->
    exists h', hv_recursive pts d (length (A d)) h = Some (VV (S d) (A d), h') /\ post d A h h'.
  Definition level_ok (d : nat) : Prop := forall A, level_ok_at d A.

  Lemma fam_zero A d S : fam A d S -> forall j, j <= d -> ~ In 0 (A j).
  Proof.
    intros H j Hj Hin. apply (Permutation_in _ (f_perm _ _ _ H j Hj)) in Hin.
    apply (f_valid _ _ _ H) in Hin. unfold valid in Hin. lia.
  Qed.

  Lemma fam_nodup A d S : fam A d S -> forall j, j <= d -> NoDup (A j).
  Proof.
    intros H j Hj. eapply Permutation_NoDup; [symmetry; apply (f_perm _ _ _ H j Hj) | apply (f_nodup _ _ _ H)].
  Qed.

  Lemma fam_In A d S : fam A d S -> forall j y, j <= d -> (In y (A j) <-> In y S).
  Proof.
    intros H j y Hj. split; apply Permutation_in; [|symmetry]; apply (f_perm _ _ _ H j Hj).
  Qed.

  Lemma nodup_valid_length l : NoDup l -> (forall y, In y l -> valid y) -> length l <= length pts.
  Proof.
    intros Hnd Hv. rewrite <- (seq_length (length pts) 1). apply NoDup_incl_length; [exact Hnd|].
    intros y Hy. apply in_seq. apply Hv in Hy. unfold valid in Hy. lia.
  Qed.

  (** ** One and two dimensions *)

  Lemma V1_min S m : (- Z.of_nat L <= m <= 0)%Z -> (forall y, In y S -> (m <= c 0 y)%Z) ->
    (exists y, In y S /\ c 0 y = m) -> VV 1 S = (- m)%Z.
  Proof.
    intros Hm Hle (y & Hy & He). cbn [V].
    replace L with (Z.to_nat (m + Z.of_nat L) + Z.to_nat (- m))%nat at 2 by lia.
    rewrite zsum_app. rewrite (zsum_const _ _ (Z.to_nat (m + Z.of_nat L)) 0%Z).
    - rewrite (zsum_const _ _ _ 1%Z); [lia|]. intros t Ht.
      destruct (filter (fun q => (c 0 q <=? t)%Z) S) as [|z l] eqn:E; [|reflexivity].
      exfalso. assert (Hin : In y (filter (fun q => (c 0 q <=? t)%Z) S)).
      { apply filter_In. split; [exact Hy|]. apply Z.leb_le. lia. }
      rewrite E in Hin. destruct Hin.
    - intros t Ht. rewrite filter_none; [reflexivity|]. intros q Hq. apply Z.leb_gt.
      specialize (Hle q Hq). lia.
  Qed.

  Lemma ordered_mid j P q Q : ordered j (P ++ q :: Q) ->
    (forall y, In y P -> before j y q) /\ (forall y, In y Q -> before j q y).
  Proof.
    intros H. split.
    - intros y Hy. apply (StronglySorted_app_inv _ _ _ H); [exact Hy | left; reflexivity].
    - intros y Hy. replace (P ++ q :: Q) with ((P ++ [q]) ++ Q) in H by (rewrite <- app_assoc; reflexivity).
      apply (StronglySorted_app_inv _ _ _ H); [apply in_or_app; right; left; reflexivity | exact Hy].
  Qed.

  Lemma sorted_mid j P q Q : sortedc j (P ++ q :: Q) ->
    (forall y, In y P -> (c j y <= c j q)%Z) /\ (forall y, In y Q -> (c j q <= c j y)%Z).
  Proof.
    intros H. split.
    - intros y Hy. apply (StronglySorted_app_inv _ _ _ H); [exact Hy | left; reflexivity].
    - intros y Hy. replace (P ++ q :: Q) with ((P ++ [q]) ++ Q) in H by (rewrite <- app_assoc; reflexivity).
      apply (StronglySorted_app_inv _ _ _ H); [apply in_or_app; right; left; reflexivity | exact Hy].
  Qed.

  Lemma sweep2_ok h A : 1 < D -> linked (nx h 1) (pv h 1) A -> sortedc 1 A -> (forall y, In y A -> valid y) ->
    forall Q P q fuel hh, A = P ++ q :: Q -> length Q <= fuel ->
      (forall y, In y (P ++ [q]) -> (hh <= c 0 y)%Z) -> (exists y, In y (P ++ [q]) /\ c 0 y = hh) ->
      sweep2 pts fuel h (WW 1 P (c 1 q)) hh q (hd 0 Q) = Some (VV 2 A).
  Proof.
    intros HD Hl Hs Hv. induction Q as [|p Q IH]; intros P q fuel hh HA Hf Hle Hex.
    - cbn [hd]. assert (Hq : valid q) by (apply Hv; subst; apply in_or_app; right; left; reflexivity).
      assert (Hr : (- Z.of_nat L <= hh <= 0)%Z).
      { destruct Hex as (y & Hy & <-). apply Hrange; [|lia]. apply Hv. subst. exact Hy. }
      unfold sweep2. destruct fuel; rewrite (cg_valid q 1 Hq HD); f_equal.
      all: pose proof (Hrange q 1 Hq HD) as Hq1; rewrite <- W_zero, HA;
           rewrite (W_step _ _ 1 (P ++ [q]) (c 1 q) 0%Z);
             [|lia|lia| intros y Hy; apply in_app_or in Hy; destruct Hy as [Hy|[<-|[]]]; [|lia];
                rewrite HA in Hs; destruct (sorted_mid _ _ _ _ Hs) as [H1 _]; apply H1, Hy];
           rewrite W_snoc by lia; rewrite (V1_min _ hh Hr Hle Hex); ring.
    - cbn [hd]. assert (Hq : valid q) by (apply Hv; subst; apply in_or_app; right; left; reflexivity).
      assert (Hp : valid p) by (apply Hv; subst; apply in_or_app; right; right; left; reflexivity).
      assert (Hr : (- Z.of_nat L <= hh <= 0)%Z).
      { destruct Hex as (y & Hy & <-). apply Hrange; [|lia]. apply Hv. subst.
        apply in_app_or in Hy. apply in_or_app. destruct Hy as [Hy|[<-|[]]]; [left; exact Hy | right; left; reflexivity]. }
      destruct fuel as [|fuel]; [cbn in Hf; lia|].
      destruct p as [|p']; [unfold valid in Hp; lia|]. cbn [sweep2].
      rewrite (cg_valid q 1 Hq HD), (cg_valid (S p') 1 Hp HD), (cg_valid (S p') 0 Hp ltac:(lia)).
      set (p := S p') in *.
      pose proof (Hrange q 1 Hq HD) as Hq1.
      replace (WW 1 P (c 1 q) + hh * (c 1 q - c 1 p))%Z with (WW 1 (P ++ [q]) (c 1 p)).
      2: { rewrite (W_step _ _ 1 (P ++ [q]) (c 1 q) (c 1 p)).
           - rewrite W_snoc by lia. rewrite (V1_min _ hh Hr Hle Hex). ring.
           - lia.
           - rewrite HA in Hs. destruct (sorted_mid _ _ _ _ Hs) as [_ H2]. apply H2. left. reflexivity.
           - intros y Hy. apply in_app_or in Hy. destruct Hy as [Hy|[<-|[]]]; [|lia].
             rewrite HA in Hs. destruct (sorted_mid _ _ _ _ Hs) as [H1 _]. apply H1, Hy. }
      assert (Hn : nx h 1 p = hd 0 Q).
      { rewrite HA in Hl. unfold linked in Hl. apply seg_app in Hl. destruct Hl as [_ Hl].
        destruct Hl as (_ & _ & Hl). apply seg_first in Hl. exact Hl. }
      rewrite Hn. apply IH.
      + rewrite HA, <- app_assoc. reflexivity.
      + cbn in Hf. lia.
      + intros y Hy. apply in_app_or in Hy.
        destruct (Z.ltb_spec (c 0 p) hh); destruct Hy as [Hy|[<-|[]]]; try lia;
          specialize (Hle y Hy); lia.
      + destruct (Z.ltb_spec (c 0 p) hh) as [Hlt|Hge].
        * exists p. split; [apply in_or_app; right; left; reflexivity | reflexivity].
        * destruct Hex as (y & Hy & He). exists y. split; [apply in_or_app; left; exact Hy | exact He].
  Qed.

  Lemma W1_nil_eq q : WW 1 [] q = 0%Z.
  Proof. apply W_nil. Qed.

  Lemma post_refl d A h : pre d A h -> d < 2 -> post d A h h.
  Proof.
    intros H Hd. constructor; auto using leq_refl; intros; try lia. apply (pr_sent _ _ _ H).
  Qed.

  Lemma level0_ok : level_ok 0.
  Proof.
    intros A h Hpre Hne. exists h. split; [|apply post_refl; [exact Hpre | lia]].
    pose proof (pr_fam _ _ _ Hpre) as HF. pose proof (f_dim _ _ _ HF) as HD.
    pose proof (pr_links _ _ _ Hpre 0 ltac:(lia)) as Hl.
    pose proof (f_sorted _ _ _ HF 0 ltac:(lia)) as Hs.
    destruct (A 0) as [|q Q] eqn:E; [congruence|]. cbn [length hv_recursive].
    apply seg_first in Hl. cbn in Hl. rewrite Hl.
    assert (Hq : valid q) by (apply (f_valid _ _ _ HF); left; reflexivity).
    rewrite (cg_valid q 0 Hq HD). rewrite (V1_min (q :: Q) (c 0 q)); [reflexivity | | |].
    - apply Hrange; assumption.
    - intros y [<-|Hy]; [lia|]. destruct (sorted_mid 0 [] q Q Hs) as [_ H2]. apply H2, Hy.
    - exists q. split; [left; reflexivity | reflexivity].
  Qed.

  Lemma level1_ok : level_ok 1.
  Proof.
    intros A h Hpre Hne. exists h. split; [|apply post_refl; [exact Hpre | lia]].
    pose proof (pr_fam _ _ _ Hpre) as HF. pose proof (f_dim _ _ _ HF) as HD.
    pose proof (pr_links _ _ _ Hpre 1 ltac:(lia)) as Hl.
    pose proof (f_sorted _ _ _ HF 1 ltac:(lia)) as Hs.
    destruct (A 1) as [|q Q] eqn:E; [congruence|]. cbn [length hv_recursive].
    pose proof (seg_first _ _ _ _ _ Hl) as Hq0. cbn [hd] in Hq0. rewrite Hq0.
    assert (Hq : valid q) by (apply (f_valid _ _ _ HF); left; reflexivity).
    rewrite (cg_valid q 0 Hq ltac:(lia)).
    assert (Hn : nx h 1 q = hd 0 Q).
    { destruct Hl as (_ & _ & Hl). apply seg_first in Hl. exact Hl. }
    rewrite Hn, <- (W_nil (coord pts) L 1 (c 1 q)).
    rewrite (sweep2_ok h (q :: Q) HD Hl Hs (fun y Hy => f_valid _ _ _ HF y Hy) Q [] q _ (c 0 q)); auto.
    - assert (H := nodup_valid_length (q :: Q) (f_nodup _ _ _ HF) (fun y Hy => f_valid _ _ _ HF y Hy)).
      cbn in H. lia.
    - intros y [<-|[]]. lia.
    - exists q. split; [left; reflexivity | reflexivity].
  Qed.

  (** ** The general recursion *)

  Lemma pv_mid n p P q Q : linked n p (P ++ q :: Q) -> p q = last P 0.
  Proof. intros H. apply seg_app in H. destruct H as [H _]. apply seg_last in H. exact H. Qed.

  Lemma nx_mid n p P q Q : linked n p (P ++ q :: Q) -> n q = hd 0 Q.
  Proof. intros H. apply seg_app in H. destruct H as [_ H]. apply seg_first in H. exact H. Qed.

  Lemma reset_ok d : forall P Q fuel h,
    linked (nx h d) (pv h d) (P ++ Q) -> (forall y, In y P -> valid y) -> NoDup P -> length P <= fuel ->
    exists h', reset_ignore pts fuel d h (last P 0) = Some h' /\
      nx h' = nx h /\ pv h' = pv h /\ area h' = area h /\ vol h' = vol h /\ bnd h' = bnd h /\
      (forall y, ign h' y = if inb y P && (ign h y <? d) then 0 else ign h y).
  Proof.
    induction P as [|q P IH] using rev_ind; intros Q fuel h Hl Hv Hnd Hf.
    - exists h. cbn. destruct fuel; cbn; repeat split; reflexivity.
    - rewrite last_last. rewrite app_length in Hf. cbn in Hf. destruct fuel as [|fuel]; [lia|].
      assert (Hq : valid q) by (apply Hv, in_or_app; right; left; reflexivity).
      destruct (cargo_valid q Hq) as (v & Hcv & _). cbn [reset_ignore]. rewrite Hcv.
      set (h1 := if ign h q <? d then set_ign h q 0 else h).
      assert (E1 : nx h1 = nx h /\ pv h1 = pv h /\ area h1 = area h /\ vol h1 = vol h /\ bnd h1 = bnd h).
      { unfold h1. destruct (ign h q <? d); repeat split. }
      destruct E1 as (E1 & E2 & E3 & E4 & E5).
      rewrite <- app_assoc in Hl. cbn [app] in Hl.
      assert (Hp : pv h1 d q = last P 0) by (rewrite E2; eapply pv_mid; exact Hl).
      rewrite Hp.
      apply NoDup_app_inv in Hnd. destruct Hnd as (Hnd1 & Hnd2 & Hdj).
      destruct (IH (q :: Q) fuel h1) as (h' & R1 & R2 & R3 & R4 & R5 & R6 & R7).
      + rewrite E1, E2. exact Hl.
      + intros y Hy. apply Hv, in_or_app. left. exact Hy.
      + exact Hnd1.
      + lia.
      + exists h'. split; [exact R1|]. rewrite R2, R3, R4, R5, R6. repeat (split; [assumption|]).
        intros y. rewrite R7. unfold inb. rewrite existsb_app. fold (inb y P). cbn [existsb].
        rewrite orb_false_r.
        destruct (Nat.eqb_spec y q) as [->|Hyq].
        * rewrite orb_true_r. cbn [andb].
          assert (HqP : inb q P = false).
          { destruct (inb q P) eqn:E; [|reflexivity]. apply inb_In in E.
            exfalso. apply (Hdj q E). left. reflexivity. }
          rewrite HqP. cbn [andb]. unfold h1. destruct (ign h q <? d); [|reflexivity].
          cbn. unfold fupd. rewrite Nat.eqb_refl. reflexivity.
        * rewrite orb_false_r.
          assert (Hi : ign h1 y = ign h y).
          { unfold h1. destruct (ign h q <? d); [|reflexivity]. cbn. unfold fupd.
            destruct (Nat.eqb_spec y q); [contradiction | reflexivity]. }
          rewrite Hi. reflexivity.
  Qed.

  (** Links after removing the nodes of [Rest] from the lists below [d]. *)
  Definition without (d : nat) (l : links) (Rest : list nat) : links := fold_right (rm d) l Rest.

  Lemma without_hi d l Rest : forall i x, d <= i ->
    fst (without d l Rest) i x = fst l i x /\ snd (without d l Rest) i x = snd l i x.
  Proof.
    induction Rest as [|z Rest IH]; intros i x Hi; [auto|].
    cbn [without fold_right rm fst snd]. fold (without d l Rest).
    destruct (Nat.ltb_spec i d); [lia|]. cbn [andb]. apply IH. exact Hi.
  Qed.

  Section Level.
    Variable d : nat.
    Variable A : nat -> list nat.
    Hypothesis HF : fam A d (A d).

    Lemma in_all j y P Rest : j <= d -> A d = P ++ Rest -> In y (P ++ Rest) -> In y (A j).
    Proof. intros Hj HA Hy. apply (fam_In _ _ _ HF j y Hj). rewrite HA. exact Hy. Qed.

    Lemma linked_without l : (forall j, j <= d -> linked (fst l j) (snd l j) (A j)) ->
      forall Rest P, A d = P ++ Rest -> forall j, j < d ->
        linked (fst (without d l Rest) j) (snd (without d l Rest) j) (restrict P (A j)).
    Proof.
      intros Hl. induction Rest as [|x Rest IH]; intros P HA j Hj.
      - cbn. rewrite app_nil_r in HA. rewrite restrict_all; [apply Hl; lia|].
        intros y Hy. rewrite <- HA. apply (fam_In _ _ _ HF j y ltac:(lia)). exact Hy.
      - assert (HA' : A d = (P ++ [x]) ++ Rest) by (rewrite HA, <- app_assoc; reflexivity).
        specialize (IH (P ++ [x]) HA' j Hj).
        assert (Hnd : NoDup (A j)) by (eapply fam_nodup; [exact HF | lia]).
        assert (HxP : ~ In x P).
        { pose proof (f_nodup _ _ _ HF) as Hn. rewrite HA in Hn. apply NoDup_remove_2 in Hn.
          intros H. apply Hn. apply in_or_app. left. exact H. }
        destruct (restrict_snoc P x (A j) Hnd) as (X & Y & E1 & E2); [|exact HxP|].
        { eapply in_all; [lia | exact HA |]. apply in_or_app. right. left. reflexivity. }
        rewrite E1 in IH. rewrite E2. cbn [without fold_right]. fold (without d l Rest).
        apply rm_linked; [exact Hj | | | exact IH].
        + rewrite <- E1. apply NoDup_filter. exact Hnd.
        + rewrite <- E1. intros H. apply filter_In in H. destruct H as [H _].
          revert H. eapply fam_zero; [exact HF | lia].
    Qed.

    (** Reinserting the first removed node undoes its removal. *)
    Lemma ins_without l : (forall j, j <= d -> linked (fst l j) (snd l j) (A j)) ->
      forall x Rest P, A d = P ++ x :: Rest ->
        leq (ins d x (without d l (x :: Rest))) (without d l Rest) /\
        (forall j, j < d -> snd (without d l (x :: Rest)) j x <> x).
    Proof.
      intros Hl x Rest P HA.
      assert (HA' : A d = (P ++ [x]) ++ Rest) by (rewrite HA, <- app_assoc; reflexivity).
      assert (Har : forall j, j < d -> let m := without d l Rest in
        fst m j (snd m j x) = x /\ snd m j (fst m j x) = x /\ snd m j x <> x /\ fst m j x <> x).
      { intros j Hj m. pose proof (linked_without l Hl Rest (P ++ [x]) HA' j Hj) as IH.
        assert (Hnd : NoDup (A j)) by (eapply fam_nodup; [exact HF | lia]).
        assert (HxP : ~ In x P).
        { pose proof (f_nodup _ _ _ HF) as Hn. rewrite HA in Hn. apply NoDup_remove_2 in Hn.
          intros H. apply Hn. apply in_or_app. left. exact H. }
        destruct (restrict_snoc P x (A j) Hnd) as (X & Y & E1 & E2); [|exact HxP|].
        { eapply in_all; [lia | exact HA |]. apply in_or_app. right. left. reflexivity. }
        rewrite E1 in IH. eapply seg_around; [| | |exact IH].
        - rewrite <- E1. apply NoDup_filter. exact Hnd.
        - rewrite <- E1. intros H. apply filter_In in H. destruct H as [H _].
          revert H. eapply fam_zero; [exact HF | lia].
        - rewrite <- E1. intros H. apply filter_In in H. destruct H as [H _].
          revert H. eapply fam_zero; [exact HF | lia]. }
      split.
      - cbn [without fold_right]. fold (without d l Rest). apply ins_rm. exact Har.
      - intros j Hj. cbn [without fold_right rm snd]. fold (without d l Rest).
        destruct (Nat.ltb_spec j d); [|lia]. cbn [andb]. destruct (Har j Hj) as (H1 & H2 & H3 & H4).
        destruct (Nat.eqb_spec x (fst (without d l Rest) j x)); congruence.
    Qed.

    Lemma cached_drop j h h' X x Y :
      sortedc j (X ++ x :: Y) -> Cached j h (X ++ x :: Y) ->
      (bnd h' j <= bnd h j)%Z -> (bnd h' j <= c j x)%Z ->
      (forall y, area h' j y = area h j y) -> (forall y, vol h' j y = vol h j y) ->
      Cached j h' (X ++ Y).
    Proof.
      intros Hs HC Hb1 Hb2 Ha Hv B q C HE Hq.
      destruct (app_split B q C X Y (eq_sym HE)) as [[C' HX]|Hin].
      - rewrite Ha, Hv. apply (HC B q (C' ++ x :: Y)); [|lia]. rewrite HX, <- app_assoc. reflexivity.
      - destruct (sorted_mid _ _ _ _ Hs) as [_ H]. specialize (H q Hin). lia.
    Qed.

    Lemma cached_add j h h' X x Y :
      sortedc j (X ++ x :: Y) -> Cached j h (X ++ Y) ->
      (bnd h' j <= bnd h j)%Z -> (bnd h' j <= c j x)%Z ->
      (forall y, area h' j y = area h j y) -> (forall y, vol h' j y = vol h j y) ->
      Cached j h' (X ++ x :: Y).
    Proof.
      intros Hs HC Hb1 Hb2 Ha Hv B q C HE Hq.
      destruct (app_split B q C X (x :: Y) (eq_sym HE)) as [[C' HX]|[Hin|Hin]].
      - rewrite Ha, Hv. apply (HC B q (C' ++ Y)); [|lia]. rewrite HX, <- app_assoc. reflexivity.
      - subst. lia.
      - destruct (sorted_mid _ _ _ _ Hs) as [_ H]. specialize (H q Hin). lia.
    Qed.

    Lemma cached_same j h h' l : Cached j h l -> bnd h' j = bnd h j ->
      (forall y, area h' j y = area h j y) -> (forall y, vol h' j y = vol h j y) -> Cached j h' l.
    Proof.
      intros HC Hb Ha Hv B q C HE Hq. rewrite Ha, Hv. apply (HC B q C HE). lia.
    Qed.

    Lemma ordered_restrict j P : j <= d -> ordered j (restrict P (A j)).
    Proof. intros Hj. apply StronglySorted_filter. apply (f_order _ _ _ HF j Hj). Qed.

    Lemma sorted_restrict j P : j <= d -> sortedc j (restrict P (A j)).
    Proof. intros Hj. apply StronglySorted_filter. apply (f_sorted _ _ _ HF j Hj). Qed.

    (** Invariant of the sweep: [Pr] are the nodes already processed, [Q] the node being
        processed (or nothing), [Rest] the nodes still removed from the lower lists. *)
    Record inv (h0 h : heap) (Pr Q Rest : list nat) : Prop := {
      i_split : A d = Pr ++ Q ++ Rest;
      i_links : leq (links_of h) (without d (links_of h0) Rest);
      i_sent : forall j, area h j 0 = 0%Z;
      i_cache : 2 <= length (Pr ++ Q) \/ Q = [] ->
                forall j, 2 <= j < d -> Cached j h (restrict (Pr ++ Q) (A j));
      i_proc : forall B y C, Pr = B ++ y :: C ->
               area h d y = VV d (B ++ [y]) /\ vol h d y = WW d B (c d y);
      i_flags1 : forall y, In y (A d) -> (In y Pr -> GP) -> d <= ign h y -> SD d y (A d);
      i_flags2 : GP -> 3 <= d -> forall y, In y Pr -> d - 1 <= ign h y -> SD (d - 1) y Pr;
      i_flags3 : forall y, In y (Q ++ Rest) -> ign h y = 0 \/ d <= ign h y;
      i_area : forall j y, d < j -> area h j y = area h0 j y;
      i_vol : forall j y, d < j -> vol h j y = vol h0 j y;
      i_bnd : forall j, d < j -> bnd h j = bnd h0 j;
      i_ign_out : forall y, ~ In y (A d) -> ign h y = ign h0 y;
      i_ign_hi : forall y, d < ign h0 y -> ign h y = ign h0 y;
      i_ign_lo : forall y, ign h0 y <= d -> ign h y <= d
    }.

    Lemma proc_last h0 h Pr Q Rest : inv h0 h Pr Q Rest -> area h d (last Pr 0) = VV d Pr.
    Proof.
      intros I. destruct Pr as [|y Pr _] using rev_ind.
      - cbn [last]. rewrite (i_sent _ _ _ _ _ I), V_nil. reflexivity.
      - rewrite last_last. destruct (i_proc _ _ _ _ _ I Pr y []) as [H _]; [reflexivity|]. exact H.
    Qed.

    Lemma SD_mono k y S S' : incl S S' -> SD k y S -> SD k y S'.
    Proof. intros H (y' & Hy & Hs). exists y'. auto. Qed.

    (** A strict improver of [q] comes earlier in list d. *)
    Lemma SD_before y Pr Rest : A d = Pr ++ y :: Rest -> SD d y (A d) -> SD d y Pr.
    Proof.
      intros HA (y' & Hy' & Hs). exists y'. split; [|exact Hs].
      rewrite HA in Hy'. apply in_app_or in Hy'. destruct Hy' as [Hy'|Hy']; [exact Hy'|].
      exfalso. pose proof (f_order _ _ _ HF d ltac:(lia)) as Hso. rewrite HA in Hso.
      destruct (ordered_mid _ _ _ _ Hso) as [_ H]. specialize (Hs d ltac:(lia)).
      destruct Hy' as [<-|Hy']; [exact (order_irrefl _ _ Hs)|]. exact (order_asym _ _ _ Hs (H y' Hy')).
    Qed.

    Hypothesis Hd : 2 <= d.
    Hypothesis HGP : GP \/ d <= 2.
    Hypothesis IH : level_ok (d - 1).

    Lemma compute_area_ok h0 h Pr q Rest :
      (forall j, j <= d -> linked (nx h0 j) (pv h0 j) (A j)) ->
      inv h0 h Pr [q] Rest -> vol h d q = WW d Pr (c d q) ->
      exists h', compute_area (hv_recursive pts (d - 1)) d (length (Pr ++ [q])) q h = Some h' /\
        inv h0 h' (Pr ++ [q]) [] Rest.
    Proof.
      intros Hl0 I Hvol.
      pose proof (i_split _ _ _ _ _ I) as HA. cbn [app] in HA.
      assert (HA' : A d = (Pr ++ [q]) ++ Rest) by (rewrite HA, <- app_assoc; reflexivity).
      assert (Hpv : forall g, leq (links_of g) (without d (links_of h0) Rest) -> pv g d q = last Pr 0).
      { intros g Hg. destruct (Hg d q) as [_ Hg2]. cbn [links_of snd] in Hg2. rewrite Hg2.
        destruct (without_hi d (links_of h0) Rest d q ltac:(lia)) as [_ Hw]. rewrite Hw. cbn [links_of snd].
        pose proof (Hl0 d ltac:(lia)) as Hl. rewrite HA in Hl. eapply pv_mid. exact Hl. }
      assert (HqA : In q (A d)) by (rewrite HA; apply in_or_app; right; left; reflexivity).
      assert (Hq0 : q <> 0).
      { intros ->. revert HqA. eapply fam_zero; [exact HF | lia]. }
      pose proof (f_nodup _ _ _ HF) as Hnd. rewrite HA in Hnd.
      assert (HqPr : ~ In q Pr).
      { intros H. apply NoDup_remove_2 in Hnd. apply Hnd, in_or_app. left. exact H. }
      assert (HlastNe : last Pr 0 <> q).
      { intros He. pose proof (last_In Pr 0) as Hi. rewrite He in Hi. destruct Hi as [Hi|Hi]; [congruence | contradiction]. }
      unfold compute_area. destruct (Nat.leb_spec d (ign h q)) as [Hig|Hig].
      - (* inherited *)
        eexists. split; [reflexivity|].
        assert (HSD : SD d q (A d)) by (apply (i_flags1 _ _ _ _ _ I q HqA); [intros H; contradiction | exact Hig]).
        assert (HSDb : SD d q Pr) by (eapply SD_before; [exact HA | exact HSD]).
        assert (HPr : 1 <= length Pr) by (destruct HSDb as (y & Hy & _); destruct Pr; [destruct Hy | cbn; lia]).
        assert (Harea : area h d (pv h d q) = VV d (Pr ++ [q])).
        { rewrite (Hpv h (i_links _ _ _ _ _ I)), (proc_last _ _ _ _ _ I), V_redundant; [reflexivity|].
          destruct HSDb as (y & Hy & Hlt). exists y. split; [exact Hy|]. intros i Hi. apply before_le, Hlt. lia. }
        constructor.
        + exact HA'.
        + exact (i_links _ _ _ _ _ I).
        + intros j. cbn [set_area area]. rewrite fupd2_at. destruct (Nat.eqb_spec 0 q); [congruence|].
          rewrite andb_false_r. apply (i_sent _ _ _ _ _ I).
        + intros _ j Hj. rewrite app_nil_r. eapply cached_same; [apply (i_cache _ _ _ _ _ I); [|exact Hj] | | |].
          * left. rewrite app_length. cbn. lia.
          * reflexivity.
          * intros y. cbn [set_area area]. rewrite fupd2_at. destruct (Nat.eqb_spec j d); [lia|]. reflexivity.
          * intros y. reflexivity.
        + intros B y C HE. cbn [set_area area vol]. rewrite fupd2_at, Nat.eqb_refl. cbn [andb].
          destruct (app_split B y C Pr [q] (eq_sym HE)) as [[C' HX]|[Hin|[]]].
          * destruct (Nat.eqb_spec y q) as [->|_].
            { exfalso. apply HqPr. rewrite HX. apply in_or_app. right. left. reflexivity. }
            apply (i_proc _ _ _ _ _ I B y C' HX).
          * subst y. rewrite Nat.eqb_refl.
            assert (HB : B = Pr /\ C = []).
            { destruct C as [|z C] using rev_ind.
              - apply app_inj_tail in HE. destruct HE as [HE _]. auto.
              - exfalso. change (B ++ q :: C ++ [z]) with (B ++ (q :: C) ++ [z]) in HE.
                rewrite app_assoc in HE. apply app_inj_tail in HE. destruct HE as [HE _].
                apply HqPr. rewrite HE. apply in_or_app. right. left. reflexivity. }
            destruct HB as [-> ->]. split; [exact Harea | exact Hvol].
        + intros y Hy Hg Hi. cbn [set_area ign] in Hi. apply (i_flags1 _ _ _ _ _ I y Hy); [|exact Hi].
          intros Hp. apply Hg, in_or_app. left. exact Hp.
        + intros Hg Hd3 y Hy Hi. cbn [set_area ign] in Hi. apply in_app_or in Hy. destruct Hy as [Hy|[<-|[]]].
          * eapply SD_mono; [|apply (i_flags2 _ _ _ _ _ I Hg Hd3 y Hy Hi)]. intros z Hz. apply in_or_app. left. exact Hz.
          * destruct HSDb as (y & Hy & Hlt). exists y. split; [apply in_or_app; left; exact Hy|].
            intros j Hj. apply Hlt. lia.
        + intros y Hy. apply (i_flags3 _ _ _ _ _ I y). right. exact Hy.
        + intros j y Hj. cbn [set_area area]. rewrite fupd2_at. destruct (Nat.eqb_spec j d); [lia|].
          apply (i_area _ _ _ _ _ I j y Hj).
        + intros j y Hj. apply (i_vol _ _ _ _ _ I j y Hj).
        + intros j Hj. apply (i_bnd _ _ _ _ _ I j Hj).
        + apply (i_ign_out _ _ _ _ _ I).
        + apply (i_ign_hi _ _ _ _ _ I).
        + apply (i_ign_lo _ _ _ _ _ I).
      - (* recursive call *)
        set (A' := fun j => restrict (Pr ++ [q]) (A j)).
        assert (Hpp : forall j, j <= d -> Permutation (A' j) (Pr ++ [q])).
        { intros j Hj. apply restrict_perm.
          - eapply fam_nodup; [exact HF | exact Hj].
          - pose proof (f_nodup _ _ _ HF) as Hn. rewrite HA' in Hn. apply NoDup_app_inv in Hn. apply Hn.
          - intros y Hy. apply (fam_In _ _ _ HF j y Hj). rewrite HA'. apply in_or_app. left. exact Hy. }
        assert (HinA' : forall j y, j <= d -> (In y (A' j) <-> In y (Pr ++ [q]))).
        { intros j y Hj. split; apply Permutation_in; [|symmetry]; apply Hpp; exact Hj. }
        assert (Hlen : length (A' (d - 1)) = length (Pr ++ [q])) by (apply Permutation_length, Hpp; lia).
        assert (Hpre : pre (d - 1) A' h).
        { constructor.
          - constructor.
            + pose proof (f_dim _ _ _ HF). lia.
            + intros j Hj. transitivity (Pr ++ [q]); [apply Hpp; lia | symmetry; apply Hpp; lia].
            + intros j Hj. apply ordered_restrict. lia.
            + apply NoDup_filter. eapply fam_nodup; [exact HF | lia].
            + intros y Hy. apply filter_In in Hy. destruct Hy as [Hy _]. apply (f_valid _ _ _ HF).
              apply (fam_In _ _ _ HF (d - 1) y ltac:(lia)). exact Hy.
          - intros j Hj. pose proof (linked_without (links_of h0) Hl0 Rest (Pr ++ [q]) HA' j ltac:(lia)) as Hlk.
            apply (linked_leq _ (links_of h) j) in Hlk; [exact Hlk | apply leq_sym, (i_links _ _ _ _ _ I)].
          - apply (i_sent _ _ _ _ _ I).
          - intros H2 j Hj. apply (i_cache _ _ _ _ _ I); [left; lia | lia].
          - intros Hd3 y Hy Hi. apply HinA' in Hy; [|lia]. apply in_app_or in Hy.
            assert (HG : GP) by (destruct HGP as [H|H]; [exact H | lia]).
            assert (Hi' : incl (Pr ++ [q]) (A' (d - 1))) by (intros z Hz; apply HinA'; [lia | exact Hz]).
            destruct Hy as [Hy|[<-|[]]].
            + eapply SD_mono; [|apply (i_flags2 _ _ _ _ _ I HG ltac:(lia) y Hy Hi)].
              intros z Hz. apply Hi', in_or_app. left. exact Hz.
            + destruct (i_flags3 _ _ _ _ _ I q) as [H0|H0]; [left; reflexivity | lia | lia]. }
        destruct (IH A' h Hpre) as (h1 & E1 & HP).
        { intros He. rewrite He in Hlen. rewrite app_length in Hlen. cbn in Hlen. lia. }
        rewrite Hlen in E1. rewrite E1.
        replace (S (d - 1)) with d in E1 by lia.
        replace (S (d - 1)) with d by lia.
        rewrite (V_perm _ _ d _ _ (Hpp (d - 1) ltac:(lia))).
        set (h2 := set_area h1 d q (VV d (Pr ++ [q]))).
        assert (Hl2 : leq (links_of h2) (without d (links_of h0) Rest)).
        { eapply leq_trans; [exact (po_links _ _ _ _ HP) | exact (i_links _ _ _ _ _ I)]. }
        assert (Ha1 : forall y, area h1 d y = area h d y) by (intros y; apply (po_area _ _ _ _ HP); lia).
        assert (Haq : area h2 d q = VV d (Pr ++ [q])).
        { unfold h2. cbn [set_area area]. rewrite fupd2_at, !Nat.eqb_refl. reflexivity. }
        assert (Hap : area h2 d (pv h2 d q) = VV d Pr).
        { rewrite (Hpv h2 Hl2). unfold h2. cbn [set_area area]. rewrite fupd2_at, Nat.eqb_refl. cbn [andb].
          destruct (Nat.eqb_spec (last Pr 0) q); [contradiction|]. rewrite Ha1. apply (proc_last _ _ _ _ _ I). }
        eexists. split; [reflexivity|]. rewrite Haq, Hap.
        (* flags of h1 *)
        assert (Hf1 : forall y, In y (A d) -> (In y (Pr ++ [q]) -> GP) -> d <= ign h1 y -> SD d y (A d)).
        { intros y Hy Hg Hi.
          destruct (le_lt_dec (ign h y) (d - 1)) as [Hlow|Hhigh].
          - pose proof (po_ign_lo _ _ _ _ HP y Hlow). lia.
          - rewrite (po_ign_hi _ _ _ _ HP y Hhigh) in Hi.
            apply (i_flags1 _ _ _ _ _ I y Hy); [|exact Hi]. intros Hp. apply Hg, in_or_app. left. exact Hp. }
        assert (Hf2 : GP -> 3 <= d -> forall y, In y (Pr ++ [q]) -> d - 1 <= ign h1 y -> SD (d - 1) y (Pr ++ [q])).
        { intros Hg Hd3 y Hy Hi. eapply SD_mono; [|apply (po_flags _ _ _ _ HP Hg ltac:(lia) y); [|exact Hi]].
          - intros z Hz. apply HinA' in Hz; [exact Hz | lia].
          - apply HinA'; [lia | exact Hy]. }
        assert (Hf3 : forall y, In y Rest -> ign h1 y = 0 \/ d <= ign h1 y).
        { intros y Hy. rewrite (po_ign_out _ _ _ _ HP y).
          - apply (i_flags3 _ _ _ _ _ I y). right. exact Hy.
          - intros Hin. apply HinA' in Hin; [|lia]. pose proof (f_nodup _ _ _ HF) as Hn. rewrite HA' in Hn.
            apply NoDup_app_inv in Hn. destruct Hn as (_ & _ & Hn). apply (Hn y Hin Hy). }
        assert (Hnew : (VV d (Pr ++ [q]) <= VV d Pr)%Z -> GP -> SD d q (Pr ++ [q])).
        { intros Hle Hg. assert (Hvq : valid q) by (apply (f_valid _ _ _ HF), HqA).
          pose proof (f_dim _ _ _ HF) as HdD.
          destruct (V_no_gain (coord pts) L d Pr q) as (p & Hp & Hpl); [|exact Hle|].
          { intros i Hi. pose proof (Hrange q i Hvq ltac:(lia)). destruct Hg as [Hg _].
            specialize (Hg q i Hvq ltac:(lia)). lia. }
          exists p. split; [apply in_or_app; left; exact Hp|].
          assert (Hvp : valid p).
          { apply (f_valid _ _ _ HF). rewrite HA. apply in_or_app. left. exact Hp. }
          destruct Hg as [_ Hg]. apply (Hg p q d Hvp Hvq ltac:(lia)); [|exact Hpl].
          pose proof (f_order _ _ _ HF d ltac:(lia)) as Hso. rewrite HA in Hso.
          destruct (ordered_mid _ _ _ _ Hso) as [H1 _]. apply H1, Hp. }
        assert (I2 : inv h0 h2 (Pr ++ [q]) [] Rest).
        { constructor.
          + exact HA'.
          + exact Hl2.
          + intros j. unfold h2. cbn [set_area area]. rewrite fupd2_at. destruct (Nat.eqb_spec 0 q); [congruence|].
            rewrite andb_false_r. apply (po_sent _ _ _ _ HP).
          + intros _ j Hj. rewrite app_nil_r. eapply cached_same; [apply (po_cache _ _ _ _ HP j); lia | | |].
            * reflexivity.
            * intros y. unfold h2. cbn [set_area area]. rewrite fupd2_at. destruct (Nat.eqb_spec j d); [lia|]. reflexivity.
            * intros y. reflexivity.
          + intros B y C HE. unfold h2. cbn [set_area area vol]. rewrite fupd2_at, Nat.eqb_refl. cbn [andb].
            rewrite (po_vol _ _ _ _ HP d y ltac:(lia)).
            destruct (app_split B y C Pr [q] (eq_sym HE)) as [[C' HX]|[Hin|[]]].
            * destruct (Nat.eqb_spec y q) as [->|_].
              { exfalso. apply HqPr. rewrite HX. apply in_or_app. right. left. reflexivity. }
              rewrite Ha1. apply (i_proc _ _ _ _ _ I B y C' HX).
            * subst y. rewrite Nat.eqb_refl.
              assert (HB : B = Pr /\ C = []).
              { destruct C as [|z C] using rev_ind.
                - apply app_inj_tail in HE. destruct HE as [HE _]. auto.
                - exfalso. change (B ++ q :: C ++ [z]) with (B ++ (q :: C) ++ [z]) in HE.
                  rewrite app_assoc in HE. apply app_inj_tail in HE. destruct HE as [HE _].
                  apply HqPr. rewrite HE. apply in_or_app. right. left. reflexivity. }
              destruct HB as [-> ->]. split; [reflexivity | exact Hvol].
          + exact Hf1.
          + exact Hf2.
          + exact Hf3.
          + intros j y Hj. unfold h2. cbn [set_area area]. rewrite fupd2_at. destruct (Nat.eqb_spec j d); [lia|]. cbn [andb].
            rewrite (po_area _ _ _ _ HP j y ltac:(lia)). apply (i_area _ _ _ _ _ I j y Hj).
          + intros j y Hj. unfold h2. cbn [set_area vol]. rewrite (po_vol _ _ _ _ HP j y ltac:(lia)).
            apply (i_vol _ _ _ _ _ I j y Hj).
          + intros j Hj. unfold h2. cbn [set_area bnd]. rewrite (po_bnd _ _ _ _ HP j ltac:(lia)).
            apply (i_bnd _ _ _ _ _ I j Hj).
          + intros y Hy. unfold h2. cbn [set_area ign]. rewrite (po_ign_out _ _ _ _ HP y).
            * apply (i_ign_out _ _ _ _ _ I y Hy).
            * intros Hin. apply Hy. apply HinA' in Hin; [|lia]. rewrite HA'. apply in_or_app. left. exact Hin.
          + intros y Hy. unfold h2. cbn [set_area ign]. pose proof (i_ign_hi _ _ _ _ _ I y Hy) as Hh.
            rewrite (po_ign_hi _ _ _ _ HP y); lia.
          + intros y Hy. unfold h2. cbn [set_area ign]. pose proof (i_ign_lo _ _ _ _ _ I y Hy) as Hlo.
            destruct (le_lt_dec (ign h y) (d - 1)) as [Hlow|Hhigh].
            * pose proof (po_ign_lo _ _ _ _ HP y Hlow). lia.
            * rewrite (po_ign_hi _ _ _ _ HP y Hhigh). exact Hlo. }
        destruct (Z.leb_spec (VV d (Pr ++ [q])) (VV d Pr)) as [Hle|Hgt]; [|exact I2].
        destruct I2 as [j1 j2 j3 j4 j5 j6 j7 j8 j9 j10 j11 j12 j13 j14].
        assert (Hset : forall y, ign (set_ign h2 q d) y = if y =? q then d else ign h2 y) by reflexivity.
        constructor; auto.
        + intros y Hy Hg Hi. rewrite Hset in Hi. destruct (Nat.eqb_spec y q) as [->|Hyq].
          * eapply SD_mono; [|apply Hnew; [exact Hle|]].
            -- intros z Hz. rewrite HA'. apply in_or_app. left. exact Hz.
            -- apply Hg. apply in_or_app. right. left. reflexivity.
          * apply j6; assumption.
        + intros Hg Hd3 y Hy Hi. rewrite Hset in Hi. destruct (Nat.eqb_spec y q) as [->|Hyq].
          * destruct (Hnew Hle Hg) as (p & Hp & Hpl). exists p. split; [exact Hp|]. intros j Hj. apply Hpl. lia.
          * apply j7; assumption.
        + intros y Hy. rewrite Hset. destruct (Nat.eqb_spec y q) as [->|Hyq].
          * right. lia.
          * apply j8. exact Hy.
        + intros y Hy. rewrite Hset. destruct (Nat.eqb_spec y q) as [->|Hyq]; [contradiction|]. apply j12. exact Hy.
        + intros y Hy. rewrite Hset. destruct (Nat.eqb_spec y q) as [->|Hyq]; [|apply j13; exact Hy].
          exfalso. pose proof (i_ign_hi _ _ _ _ _ I q Hy). lia.
        + intros y Hy. rewrite Hset. destruct (Nat.eqb_spec y q) as [->|Hyq]; [lia|]. apply j14. exact Hy.
    Qed.

    Lemma init_area_frame k q h : let h' := init_area pts k q h in
      nx h' = nx h /\ pv h' = pv h /\ ign h' = ign h /\ vol h' = vol h /\ bnd h' = bnd h /\
      (forall j y, k < j \/ y <> q -> area h' j y = area h j y).
    Proof.
      unfold init_area. cbn zeta.
      assert (G : forall (old : nat -> Z) l g, (forall i, In i l -> i < k) ->
        let h' := fold_left (fun g i => set_area g (S i) q (old i * - coord pts i q)%Z) l g in
        nx h' = nx g /\ pv h' = pv g /\ ign h' = ign g /\ vol h' = vol g /\ bnd h' = bnd g /\
        (forall j y, k < j \/ y <> q -> area h' j y = area g j y)).
      { intros old. induction l as [|i l IHl]; intros g Hl; cbn [fold_left]; [repeat split|].
        destruct (IHl (set_area g (S i) q (old i * - coord pts i q)%Z)) as (E1 & E2 & E3 & E4 & E5 & E6).
        { intros x Hx. apply Hl. right. exact Hx. }
        cbn zeta in *. rewrite E1, E2, E3, E4, E5. repeat split. intros j y Hjy. rewrite (E6 j y Hjy).
        cbn [set_area area]. rewrite fupd2_at. specialize (Hl i (or_introl eq_refl)).
        destruct (Nat.eqb_spec j (S i)), (Nat.eqb_spec y q); cbn [andb]; try reflexivity. lia. }
      destruct (G (fun i => if (i =? 0)%nat then 1%Z else area h i q) (seq 0 k) (set_area h 0 q 1%Z)) as (E1 & E2 & E3 & E4 & E5 & E6).
      { intros i Hi. apply in_seq in Hi. lia. }
      cbn zeta beta in *. rewrite E1, E2, E3, E4, E5. repeat split. intros j y Hjy. rewrite (E6 j y Hjy).
      cbn [set_area area]. rewrite fupd2_at. destruct (Nat.eqb_spec j 0), (Nat.eqb_spec y q); cbn [andb]; try reflexivity. lia.
    Qed.

    Lemma sweep_loop_ok h0 : (forall j, j <= d -> linked (nx h0 j) (pv h0 j) (A j)) ->
      forall Rest P0 q h fuel, inv h0 h (P0 ++ [q]) [] Rest -> length Rest <= fuel ->
        exists h', sweep_loop pts (hv_recursive pts (d - 1)) fuel d h (WW d P0 (c d q)) q (hd 0 Rest)
                     (length (P0 ++ [q])) = Some (VV (S d) (A d), h') /\
          inv h0 h' (A d) [] [].
    Proof.
      intros Hl0. pose proof (f_dim _ _ _ HF) as HdD. pose proof (f_sorted _ _ _ HF d ltac:(lia)) as Hso.
      induction Rest as [|x Rest IHR]; intros P0 q h fuel I Hf.
      - pose proof (i_split _ _ _ _ _ I) as HA. cbn [app] in HA. rewrite app_nil_r in HA.
        assert (Hq : valid q) by (apply (f_valid _ _ _ HF); rewrite HA; apply in_or_app; right; left; reflexivity).
        exists h. rewrite <- HA in I. split; [|exact I]. rewrite <- HA in *.
        destruct (i_proc _ _ _ _ _ I P0 q []) as [Ha _]; [exact HA|].
        pose proof (Hrange q d Hq HdD) as Hr.
        assert (Hval : (WW d P0 (c d q) - area h d q * c d q)%Z = VV (S d) (A d)).
        { rewrite <- W_zero, HA, Ha. rewrite (W_step _ _ d (P0 ++ [q]) (c d q) 0%Z).
          - rewrite W_snoc by lia. ring.
          - lia.
          - lia.
          - intros y Hy. apply in_app_or in Hy. destruct Hy as [Hy|[<-|[]]]; [|lia].
            rewrite HA in Hso. destruct (sorted_mid _ _ _ _ Hso) as [H1 _]. apply H1, Hy. }
        cbn [hd]. destruct fuel; cbn [sweep_loop]; rewrite (cg_valid q d Hq HdD), Hval; reflexivity.
      - destruct fuel as [|fuel]; [cbn in Hf; lia|].
        pose proof (i_split _ _ _ _ _ I) as HA. cbn [app] in HA.
        assert (HA2 : A d = P0 ++ q :: x :: Rest) by (rewrite HA, <- app_assoc; reflexivity).
        assert (HA3 : A d = ((P0 ++ [q]) ++ [x]) ++ Rest) by (rewrite HA, <- !app_assoc; reflexivity).
        assert (HA4 : A d = (P0 ++ [q]) ++ [x] ++ Rest) by (rewrite HA; reflexivity).
        assert (Hq : valid q) by (apply (f_valid _ _ _ HF); rewrite HA2; apply in_or_app; right; left; reflexivity).
        assert (Hx : valid x) by (apply (f_valid _ _ _ HF); rewrite HA; apply in_or_app; right; left; reflexivity).
        assert (HxA : In x (A d)) by (rewrite HA; apply in_or_app; right; left; reflexivity).
        assert (HxP : ~ In x (P0 ++ [q])).
        { pose proof (f_nodup _ _ _ HF) as Hn. rewrite HA in Hn. apply NoDup_remove_2 in Hn.
          intros H. apply Hn, in_or_app. left. exact H. }
        pose proof (Hrange q d Hq HdD) as Hrq. pose proof (Hrange x d Hx HdD) as Hrx.
        destruct (i_proc _ _ _ _ _ I P0 q [] eq_refl) as [Haq _].
        assert (HW : (WW d P0 (c d q) + area h d q * (c d x - c d q))%Z = WW d (P0 ++ [q]) (c d x)).
        { rewrite Haq, (W_step _ _ d (P0 ++ [q]) (c d q) (c d x)).
          - rewrite W_snoc by lia. ring.
          - lia.
          - rewrite HA2 in Hso. destruct (sorted_mid _ _ _ _ Hso) as [_ H1]. apply H1. left. reflexivity.
          - intros y Hy. apply in_app_or in Hy. destruct Hy as [Hy|[<-|[]]]; [|lia].
            rewrite HA2 in Hso. destruct (sorted_mid _ _ _ _ Hso) as [H1 _]. apply H1, Hy. }
        cbn [hd]. destruct x as [|x']; [unfold valid in Hx; lia|]. cbn [sweep_loop]. set (x := S x') in *.
        rewrite (cg_valid x d Hx HdD), (cg_valid q d Hq HdD), HW.
        destruct (ins_without (links_of h0) Hl0 x Rest (P0 ++ [q]) HA) as [Hins Hpvx].
        destruct (reinsert_ok pts d x (set_bnd h d (c d x))) as (h1 & E1 & B1 & L1).
        { intros i Hi. rewrite cg_valid by (assumption || lia). discriminate. }
        { intros i Hi. cbn [set_bnd pv]. destruct (i_links _ _ _ _ _ I i x) as [_ Hp]. cbn [links_of snd] in Hp.
          rewrite Hp. apply Hpvx. exact Hi. }
        rewrite E1.
        assert (HL1 : leq (links_of h1) (without d (links_of h0) Rest)).
        { eapply leq_trans; [exact L1|]. eapply leq_trans; [|exact Hins]. apply ins_leq.
          intros i y. apply (i_links _ _ _ _ _ I i y). }
        assert (Hnx : nx h1 d x = hd 0 Rest).
        { destruct (HL1 d x) as [Hn _]. cbn [links_of fst] in Hn. rewrite Hn.
          destruct (without_hi d (links_of h0) Rest d x ltac:(lia)) as [Hw _]. rewrite Hw. cbn [links_of fst].
          pose proof (Hl0 d ltac:(lia)) as Hl. rewrite HA in Hl. eapply nx_mid. exact Hl. }
        rewrite Hnx. destruct B1 as [b1 b2 b3 b4 b5]. cbn [set_bnd ign area vol bnd] in b1, b2, b3, b4, b5.
        set (h2 := set_vol h1 d x (WW d (P0 ++ [q]) (c d x))).
        assert (Hv2 : forall j y, vol h2 j y = if (j =? d) && (y =? x) then WW d (P0 ++ [q]) (c d x) else vol h j y).
        { intros j y. unfold h2. cbn [set_vol vol]. rewrite fupd2_at, b3. reflexivity. }
        assert (I2 : inv h0 h2 (P0 ++ [q]) [x] Rest).
        { constructor.
          + exact HA4.
          + exact HL1.
          + intros j. unfold h2. cbn [set_vol area]. rewrite b2. apply (i_sent _ _ _ _ _ I).
          + intros _ j Hj.
            destruct (restrict_snoc (P0 ++ [q]) x (A j)) as (X & Y & R1 & R2); [| |exact HxP|].
            { eapply fam_nodup; [exact HF | lia]. }
            { apply (fam_In _ _ _ HF j x ltac:(lia)). exact HxA. }
            rewrite R1. apply (cached_add j h h2).
            * rewrite <- R1. apply sorted_restrict. lia.
            * rewrite <- R2. pose proof (i_cache _ _ _ _ _ I (or_intror eq_refl) j Hj) as HC.
              rewrite app_nil_r in HC. exact HC.
            * unfold h2. cbn [set_vol bnd]. rewrite b4 by lia. unfold fupd. destruct (Nat.eqb_spec j d); [lia|]. lia.
            * unfold h2. cbn [set_vol bnd]. rewrite b4 by lia. lia.
            * intros y. unfold h2. cbn [set_vol area]. apply b2.
            * intros y. rewrite Hv2. destruct (Nat.eqb_spec j d); [lia|]. reflexivity.
          + intros B y C HE. rewrite Hv2, Nat.eqb_refl. unfold h2. cbn [set_vol area andb]. rewrite b2.
            destruct (Nat.eqb_spec y x) as [->|_].
            { exfalso. apply HxP. rewrite HE. apply in_or_app. right. left. reflexivity. }
            apply (i_proc _ _ _ _ _ I B y C HE).
          + intros y Hy Hg Hi. unfold h2 in Hi. cbn [set_vol ign] in Hi. rewrite b1 in Hi.
            apply (i_flags1 _ _ _ _ _ I y Hy Hg Hi).
          + intros Hg Hd3 y Hy Hi. unfold h2 in Hi. cbn [set_vol ign] in Hi. rewrite b1 in Hi.
            apply (i_flags2 _ _ _ _ _ I Hg Hd3 y Hy Hi).
          + intros y Hy. unfold h2. cbn [set_vol ign]. rewrite b1. apply (i_flags3 _ _ _ _ _ I y Hy).
          + intros j y Hj. unfold h2. cbn [set_vol area]. rewrite b2. apply (i_area _ _ _ _ _ I j y Hj).
          + intros j y Hj. rewrite Hv2. destruct (Nat.eqb_spec j d); [lia|]. apply (i_vol _ _ _ _ _ I j y Hj).
          + intros j Hj. unfold h2. cbn [set_vol bnd]. rewrite b5 by lia. unfold fupd.
            destruct (Nat.eqb_spec j d); [lia|]. apply (i_bnd _ _ _ _ _ I j Hj).
          + intros y Hy. unfold h2. cbn [set_vol ign]. rewrite b1. apply (i_ign_out _ _ _ _ _ I y Hy).
          + intros y Hy. unfold h2. cbn [set_vol ign]. rewrite b1. apply (i_ign_hi _ _ _ _ _ I y Hy).
          + intros y Hy. unfold h2. cbn [set_vol ign]. rewrite b1. apply (i_ign_lo _ _ _ _ _ I y Hy). }
        destruct (compute_area_ok h0 h2 (P0 ++ [q]) x Rest Hl0 I2) as (h3 & E3 & I3).
        { rewrite Hv2, !Nat.eqb_refl. reflexivity. }
        replace (S (length (P0 ++ [q]))) with (length ((P0 ++ [q]) ++ [x])) by (rewrite (app_length (P0 ++ [q])); cbn; lia).
        rewrite E3. apply IHR; [exact I3 | cbn in Hf; lia].
    Qed.

    (** The removal loop. *)
    Record rinv (h0 h : heap) (P Rest : list nat) : Prop := {
      r_split : A d = P ++ Rest;
      r_links : leq (links_of h) (without d (links_of h0) Rest);
      r_cache : 2 <= length P \/ Rest <> [] -> forall j, 2 <= j < d -> Cached j h (restrict P (A j));
      r_area : forall j y, area h j y = area h0 j y;
      r_vol : forall j y, vol h j y = vol h0 j y;
      r_ign : forall y, ign h y = ign h0 y;
      r_bnd : forall j, d <= j -> bnd h j = bnd h0 j
    }.

    Lemma remove_loop_ok h0 : (forall j, j <= d -> linked (nx h0 j) (pv h0 j) (A j)) ->
      forall P q Rest h fuel, rinv h0 h (P ++ [q]) Rest -> length P <= fuel ->
        exists h' P' q' Rest',
          remove_loop pts fuel d h (hd 0 Rest) q (length (P ++ [q])) = Some (h', hd 0 Rest', q', length (P' ++ [q'])) /\
          rinv h0 h' (P' ++ [q']) Rest' /\
          (P' = [] \/ forall y, In y P' -> (c d y < bnd h0 d)%Z).
    Proof.
      intros Hl0. pose proof (f_dim _ _ _ HF) as HdD. pose proof (f_sorted _ _ _ HF d ltac:(lia)) as Hso.
      induction P as [|q2 P IHP] using rev_ind; intros q Rest h fuel R Hf.
      - exists h, [], q, Rest. split; [|split; [exact R | left; reflexivity]].
        destruct fuel; reflexivity.
      - pose proof (r_split _ _ _ _ R) as HA.
        assert (HA2 : A d = (P ++ [q2]) ++ q :: Rest) by (rewrite HA, <- !app_assoc; reflexivity).
        assert (HA3 : A d = P ++ q2 :: q :: Rest) by (rewrite HA2, <- app_assoc; reflexivity).
        assert (Hq : valid q) by (apply (f_valid _ _ _ HF); rewrite HA2; apply in_or_app; right; left; reflexivity).
        assert (Hq2 : valid q2) by (apply (f_valid _ _ _ HF); rewrite HA3; apply in_or_app; right; left; reflexivity).
        assert (Hpv : pv h d q = q2).
        { destruct (r_links _ _ _ _ R d q) as [_ Hg2]. cbn [links_of snd] in Hg2. rewrite Hg2.
          destruct (without_hi d (links_of h0) Rest d q ltac:(lia)) as [_ Hw]. rewrite Hw. cbn [links_of snd].
          pose proof (Hl0 d ltac:(lia)) as Hl. rewrite HA2 in Hl. rewrite (pv_mid _ _ _ _ _ Hl). apply last_last. }
        assert (Hlen : length ((P ++ [q2]) ++ [q]) = S (length (P ++ [q2]))) by (rewrite app_length; cbn; lia).
        assert (Hlen2 : length (P ++ [q2]) = S (length P)) by (rewrite app_length; cbn; lia).
        rewrite Hlen2 in Hf. destruct fuel as [|fuel]; [lia|].
        rewrite Hlen, Hlen2. cbn [remove_loop Nat.leb]. rewrite (cg_valid q d Hq HdD).
        rewrite Hpv, (cg_valid q2 d Hq2 HdD).
        set (go := if (bnd h d <? c d q)%Z then Some true else Some (bnd h d <=? c d q2)%Z).
        destruct go as [[|]|] eqn:Ego.
        + destruct (remove_ok pts d q h) as (h1 & E1 & B1 & L1).
          { intros i Hi. rewrite cg_valid by (assumption || lia). discriminate. }
          rewrite E1. destruct B1 as [b1 b2 b3 b4 b5].
          assert (HL1 : leq (links_of h1) (without d (links_of h0) (q :: Rest))).
          { eapply leq_trans; [exact L1|]. cbn [without fold_right]. apply rm_leq. exact (r_links _ _ _ _ R). }
          assert (Hpv1 : pv h1 d q = q2).
          { destruct (HL1 d q) as [_ Hg2]. cbn [links_of snd] in Hg2. rewrite Hg2.
            destruct (without_hi d (links_of h0) (q :: Rest) d q ltac:(lia)) as [_ Hw]. rewrite Hw. cbn [links_of snd].
            pose proof (Hl0 d ltac:(lia)) as Hl. rewrite HA2 in Hl. rewrite (pv_mid _ _ _ _ _ Hl). apply last_last. }
          rewrite Hpv1. replace (S (S (length P)) - 1) with (length (P ++ [q2])) by lia.
          apply (IHP q2 (q :: Rest) h1 fuel); [|lia]. constructor.
          * exact HA2.
          * exact HL1.
          * intros _ j Hj.
            destruct (restrict_snoc (P ++ [q2]) q (A j)) as (X & Y & R1 & R2).
            { eapply fam_nodup; [exact HF | lia]. }
            { apply (fam_In _ _ _ HF j q ltac:(lia)). rewrite HA2. apply in_or_app. right. left. reflexivity. }
            { pose proof (f_nodup _ _ _ HF) as Hn. rewrite HA2 in Hn. apply NoDup_remove_2 in Hn.
              intros H. apply Hn, in_or_app. left. exact H. }
            rewrite R2. apply (cached_drop j h h1 X q Y).
            -- rewrite <- R1. apply sorted_restrict. lia.
            -- rewrite <- R1. apply (r_cache _ _ _ _ R); [left; lia | exact Hj].
            -- rewrite b4 by lia. lia.
            -- rewrite b4 by lia. lia.
            -- intros y. apply b2.
            -- intros y. apply b3.
          * intros j y. rewrite b2. apply (r_area _ _ _ _ R).
          * intros j y. rewrite b3. apply (r_vol _ _ _ _ R).
          * intros y. rewrite b1. apply (r_ign _ _ _ _ R).
          * intros j Hj. rewrite b5 by lia. apply (r_bnd _ _ _ _ R j Hj).
        + exists h, (P ++ [q2]), q, Rest. rewrite Hlen, Hlen2. split; [reflexivity|].
          split; [exact R|]. right. unfold go in Ego.
          destruct (Z.ltb_spec (bnd h d) (c d q)); [discriminate|]. injection Ego as Ego. apply Z.leb_gt in Ego.
          rewrite (r_bnd _ _ _ _ R d ltac:(lia)) in Ego. intros y Hy. apply in_app_or in Hy.
          destruct Hy as [Hy|[<-|[]]]; [|exact Ego].
          rewrite HA3 in Hso. destruct (sorted_mid _ _ _ _ Hso) as [H1 _]. specialize (H1 y Hy). lia.
        + unfold go in Ego. destruct (bnd h d <? c d q)%Z; discriminate.
    Qed.

    Lemma level_step : level_ok_at d A.
    Proof.
      intros h Hpre Hne. pose proof (f_dim _ _ _ HF) as HdD.
      pose proof (pr_links _ _ _ Hpre) as Hl.
      assert (HNl : length (A d) <= length pts) by (apply nodup_valid_length; [apply (f_nodup _ _ _ HF) | apply (f_valid _ _ _ HF)]).
      destruct d as [|[|d'']] eqn:Ed; [lia | lia|]. rewrite <- Ed in *. set (d' := S d'') in *.
      assert (Hlen : exists n, length (A d) = S n) by (destruct (A d); [congruence | eexists; reflexivity]).
      destruct Hlen as [n Hn].
      assert (Hunf : hv_recursive pts d (length (A d)) h =
        match reset_ignore pts (length pts) d h (pv h d 0) with
            | None => None
            | Some h1 =>
                match remove_loop pts (length pts) d h1 0 (pv h1 d 0) (length (A d)) with
                | None => None
                | Some (h2, p, q, len2) =>
                    let qp := pv h2 d q in
                    let start :=
                      if (1 <? len2)%nat then
                        match cg pts q d, cg pts qp d with
                        | Some qc, Some qpc => Some (vol h2 d qp + area h2 d qp * (qc - qpc), h2)%Z
                        | _, _ => None
                        end
                      else Some (0%Z, init_area pts d q h2) in
                    match start with
                    | None => None
                    | Some (hvol, h3) =>
                        match compute_area (hv_recursive pts (d - 1)) d len2 q (set_vol h3 d q hvol) with
                        | None => None
                        | Some h4 => sweep_loop pts (hv_recursive pts (d - 1)) (length pts) d h4 hvol q p len2
                        end
                    end
                end
            end).
      { rewrite Hn. replace (d - 1) with d' by lia. rewrite Ed at 1. cbn [hv_recursive]. fold d'. rewrite <- Ed. reflexivity. }
      rewrite Hunf. clear Hunf.
      destruct (reset_ok d (A d) [] (length pts) h) as (h1 & E1 & N1 & P1 & A1 & V1 & B1 & I1).
      { rewrite app_nil_r. apply Hl. lia. }
      { apply (f_valid _ _ _ HF). }
      { apply (f_nodup _ _ _ HF). }
      { exact HNl. }
      assert (Hlast : pv h d 0 = last (A d) 0) by (pose proof (Hl d ltac:(lia)) as Hd0; apply seg_last in Hd0; exact Hd0).
      rewrite Hlast, E1, P1, Hlast.
      destruct (exists_last Hne) as (P0 & q0 & EA).
      replace (last (A d) 0) with q0 by (rewrite EA, last_last; reflexivity).
      assert (Hl1 : forall j, j <= d -> linked (nx h1 j) (pv h1 j) (A j)) by (rewrite N1, P1; exact Hl).
      assert (R0 : rinv h1 h1 (P0 ++ [q0]) []).
      { constructor; auto using leq_refl.
        - rewrite app_nil_r. exact EA.
        - intros [H2|H2]; [|congruence]. intros j Hj. rewrite restrict_all.
          + eapply cached_same; [apply (pr_cache _ _ _ Hpre); [|] | | |]; try lia; rewrite ?A1, ?V1, ?B1; auto.
            rewrite EA. exact H2.
          + intros y Hy. rewrite <- EA. apply (fam_In _ _ _ HF j y ltac:(lia)). exact Hy. }
      destruct (remove_loop_ok h1 Hl1 P0 q0 [] h1 (length pts) R0) as (h2 & P & q & Rest & E2 & R & Hbelow).
      { rewrite EA, app_length in HNl. cbn in HNl. lia. }
      cbn [hd] in E2. rewrite <- EA in E2. rewrite E2. cbn zeta.
      pose proof (r_split _ _ _ _ R) as HA.
      assert (HA2 : A d = P ++ q :: Rest) by (rewrite HA, <- app_assoc; reflexivity).
      assert (HqA : In q (A d)) by (rewrite HA2; apply in_or_app; right; left; reflexivity).
      assert (Hq : valid q) by (apply (f_valid _ _ _ HF), HqA).
      assert (Hq0 : q <> 0) by (unfold valid in Hq; lia).
      pose proof (f_nodup _ _ _ HF) as Hnd. rewrite HA2 in Hnd.
      assert (HqP : ~ In q P) by (apply NoDup_remove_2 in Hnd; intros H; apply Hnd, in_or_app; left; exact H).
      pose proof (f_sorted _ _ _ HF d ltac:(lia)) as Hso.
      assert (Hpv : pv h2 d q = last P 0).
      { destruct (r_links _ _ _ _ R d q) as [_ Hg2]. cbn [links_of snd] in Hg2. rewrite Hg2.
        destruct (without_hi d (links_of h1) Rest d q ltac:(lia)) as [_ Hw]. rewrite Hw. cbn [links_of snd].
        pose proof (Hl1 d ltac:(lia)) as Hl'. rewrite HA2 in Hl'. apply (pv_mid _ _ _ _ _ Hl'). }
      assert (Hproc : P <> [] -> forall B y C, P = B ++ y :: C ->
        area h2 d y = VV d (B ++ [y]) /\ vol h2 d y = WW d B (c d y)).
      { intros HP B y C HE. rewrite (r_area _ _ _ _ R), (r_vol _ _ _ _ R), A1, V1.
        apply (pr_cache _ _ _ Hpre) with (C := C ++ q :: Rest).
        - rewrite HA2, app_length. cbn. destruct P; [congruence | cbn; lia].
        - lia.
        - rewrite HA2, HE, <- app_assoc. reflexivity.
        - destruct Hbelow as [Hb|Hb]; [congruence|]. rewrite <- B1. apply Hb. rewrite HE.
          apply in_or_app. right. left. reflexivity. }
      assert (Hstart : exists h3,
        (if 1 <? length (P ++ [q]) then
           match cg pts q d, cg pts (pv h2 d q) d with
           | Some qc, Some qpc => Some (vol h2 d (pv h2 d q) + area h2 d (pv h2 d q) * (qc - qpc), h2)%Z
           | _, _ => None
           end
         else Some (0%Z, init_area pts d q h2)) = Some (WW d P (c d q), h3) /\
        nx h3 = nx h2 /\ pv h3 = pv h2 /\ ign h3 = ign h2 /\ vol h3 = vol h2 /\ bnd h3 = bnd h2 /\
        (forall j y, d < j \/ y <> q -> area h3 j y = area h2 j y) /\
        (P <> [] -> h3 = h2)).
      { rewrite Hpv. destruct P as [|p0 P' _] using rev_ind.
        - exists (init_area pts d q h2). cbn [app length]. rewrite W_nil.
          destruct (init_area_frame d q h2) as (F1 & F2 & F3 & F4 & F5 & F6). cbn zeta in *.
          repeat split; auto. congruence.
        - exists h2. rewrite last_last.
          assert (Hp0 : valid p0).
          { apply (f_valid _ _ _ HF). rewrite HA2. apply in_or_app. left. apply in_or_app. right. left. reflexivity. }
          destruct (Nat.ltb_spec 1 (length ((P' ++ [p0]) ++ [q]))) as [_|H]; [|rewrite !app_length in H; cbn in H; lia].
          rewrite (cg_valid q d Hq HdD), (cg_valid p0 d Hp0 HdD).
          destruct (Hproc ltac:(destruct P'; discriminate) P' p0 [] eq_refl) as [Ha Hv].
          repeat split; auto. rewrite Ha, Hv. do 2 f_equal.
          pose proof (Hrange p0 d Hp0 HdD) as Hr. rewrite HA2, <- app_assoc in Hso. cbn [app] in Hso.
          destruct (sorted_mid _ _ _ _ Hso) as [S1 S2].
          rewrite (W_step _ _ d (P' ++ [p0]) (c d p0) (c d q)).
          + rewrite W_snoc by lia. reflexivity.
          + lia.
          + apply S2. left. reflexivity.
          + intros y Hy. apply in_app_or in Hy. destruct Hy as [Hy|[<-|[]]]; [|lia]. apply S1, Hy. }
      destruct Hstart as (h3 & E3 & N3 & P3 & I3 & V3 & B3 & A3 & Heq3). rewrite E3.
      set (h4 := set_vol h3 d q (WW d P (c d q))).
      assert (Hign4 : forall y, ign h4 y = if inb y (A d) && (ign h y <? d) then 0 else ign h y).
      { intros y. unfold h4. cbn [set_vol ign]. rewrite I3, (r_ign _ _ _ _ R), I1. reflexivity. }
      assert (Hv4 : forall j y, (j <> d \/ y <> q) -> vol h4 j y = vol h2 j y).
      { intros j y Hjy. unfold h4. cbn [set_vol vol]. rewrite fupd2_at, V3.
        destruct (Nat.eqb_spec j d), (Nat.eqb_spec y q); cbn [andb]; try reflexivity. lia. }
      assert (I4 : inv h1 h4 P [q] Rest).
      { constructor.
        + exact HA2.
        + intros i y. cbn [links_of fst snd]. unfold h4. cbn [set_vol nx pv]. rewrite N3, P3. apply (r_links _ _ _ _ R i y).
        + intros j. unfold h4. cbn [set_vol area]. rewrite A3 by (right; congruence).
          rewrite (r_area _ _ _ _ R), A1. apply (pr_sent _ _ _ Hpre).
        + intros [H2|H2]; [|discriminate]. intros j Hj.
          assert (HPne : P <> []) by (intros ->; cbn in H2; lia).
          apply (cached_same j h2 h4).
          * apply (r_cache _ _ _ _ R); [left; exact H2 | exact Hj].
          * unfold h4. cbn [set_vol bnd]. rewrite B3. reflexivity.
          * intros y. unfold h4. cbn [set_vol area]. rewrite (Heq3 HPne). reflexivity.
          * intros y. apply Hv4. left. lia.
        + intros B y C HE.
          assert (HPne : P <> []) by (rewrite HE; destruct B; discriminate).
          assert (Hyq : y <> q).
          { intros ->. apply HqP. rewrite HE. apply in_or_app. right. left. reflexivity. }
          rewrite Hv4 by (right; exact Hyq). unfold h4. cbn [set_vol area]. rewrite (Heq3 HPne).
          apply (Hproc HPne B y C HE).
        + intros y Hy _ Hi. rewrite Hign4 in Hi.
          replace (inb y (A d)) with true in Hi by (symmetry; apply inb_In; exact Hy). cbn [andb] in Hi.
          destruct (Nat.ltb_spec (ign h y) d) as [Hlt|Hge]; [lia|].
          apply (pr_flags _ _ _ Hpre Hd y Hy Hge).
        + intros Hg Hd3 y Hy Hi. rewrite Hign4 in Hi.
          assert (HyA : In y (A d)) by (rewrite HA2; apply in_or_app; left; exact Hy).
          replace (inb y (A d)) with true in Hi by (symmetry; apply inb_In; exact HyA). cbn [andb] in Hi.
          destruct (Nat.ltb_spec (ign h y) d) as [Hlt|Hge]; [lia|].
          pose proof (pr_flags _ _ _ Hpre Hd y HyA Hge) as HS.
          apply in_split in Hy. destruct Hy as (Pa & Pb & HPs).
          assert (HS2 : SD d y Pa).
          { eapply SD_before; [|exact HS]. rewrite HA2, HPs, <- app_assoc. reflexivity. }
          destruct HS2 as (y' & Hy' & Hlt). exists y'. split; [rewrite HPs; apply in_or_app; left; exact Hy'|].
          intros j Hj. apply Hlt. lia.
        + intros y Hy. rewrite Hign4.
          assert (HyA : In y (A d)) by (rewrite HA2; apply in_or_app; right; exact Hy).
          replace (inb y (A d)) with true by (symmetry; apply inb_In; exact HyA). cbn [andb].
          destruct (Nat.ltb_spec (ign h y) d); [left; reflexivity | right; assumption].
        + intros j y Hj. unfold h4. cbn [set_vol area]. rewrite A3 by (left; exact Hj). apply (r_area _ _ _ _ R).
        + intros j y Hj. rewrite Hv4 by (left; lia). apply (r_vol _ _ _ _ R).
        + intros j Hj. unfold h4. cbn [set_vol bnd]. rewrite B3. apply (r_bnd _ _ _ _ R). lia.
        + intros y Hy. unfold h4. cbn [set_vol ign]. rewrite I3. apply (r_ign _ _ _ _ R).
        + intros y Hy. unfold h4. cbn [set_vol ign]. rewrite I3. apply (r_ign _ _ _ _ R).
        + intros y Hy. unfold h4. cbn [set_vol ign]. rewrite I3, (r_ign _ _ _ _ R). exact Hy. }
      destruct (compute_area_ok h1 h4 P q Rest Hl1 I4) as (h5 & E5 & I5).
      { unfold h4. cbn [set_vol vol]. rewrite fupd2_at, !Nat.eqb_refl. reflexivity. }
      rewrite E5.
      destruct (sweep_loop_ok h1 Hl1 Rest P q h5 (length pts) I5) as (h6 & E6 & I6).
      { rewrite HA2, app_length in HNl. cbn in HNl. lia. }
      exists h6. split; [exact E6|].
      destruct I6 as [k1 k2 k3 k4 k5 k6 k7 k8 k9 k10 k11 k12 k13 k14].
      assert (Hi1 : forall y, ign h1 y <= ign h y) by (intros y; rewrite I1; destruct (inb _ _ && _); lia).
      constructor.
      - eapply leq_trans; [exact k2|]. cbn [without fold_right]. intros i y. cbn [links_of fst snd]. rewrite N1, P1. auto.
      - exact k3.
      - intros j Hj. destruct (Nat.eq_dec j d) as [->|Hjd].
        + intros B y C HE _. apply (k5 B y C HE).
        + pose proof (k4 (or_intror eq_refl) j ltac:(lia)) as HC. rewrite app_nil_r, restrict_all in HC; [exact HC|].
          intros y Hy. apply (fam_In _ _ _ HF j y ltac:(lia)). exact Hy.
      - intros j y Hj. rewrite k9, A1 by lia. reflexivity.
      - intros j y Hj. rewrite k10, V1 by lia. reflexivity.
      - intros j Hj. rewrite k11, B1 by lia. reflexivity.
      - intros y Hy. rewrite k12 by exact Hy. rewrite I1.
        destruct (inb y (A d)) eqn:E; [|reflexivity]. apply inb_In in E. contradiction.
      - intros y Hy. assert (Hy1 : ign h1 y = ign h y).
        { rewrite I1. destruct (Nat.ltb_spec (ign h y) d); [lia|]. rewrite andb_false_r. reflexivity. }
        rewrite k13; lia.
      - intros y Hy. apply k14. specialize (Hi1 y). lia.
      - intros Hg _ y Hy Hi. apply (k6 y Hy (fun _ => Hg) Hi).
    Qed.
  End Level.

  Theorem hv_recursive_ok : forall d, GP \/ d <= 2 -> level_ok d.
  Proof.
    induction d as [|d IHd]; intros Hg; [apply level0_ok|].
    destruct d as [|d]; [apply level1_ok|].
    intros A h Hpre Hne. apply (level_step (S (S d)) A).
    - apply (pr_fam _ _ _ Hpre).
    - lia.
    - exact Hg.
    - replace (S (S d) - 1) with (S d) by lia. apply IHd. destruct Hg; [left; assumption | right; lia].
    - exact Hpre.
    - exact Hne.
  Qed.
End Exact.
