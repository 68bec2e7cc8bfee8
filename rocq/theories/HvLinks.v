(** Doubly linked lists of the hypervolume multi-list: removal and reinsertion. *)
From Verif Require Import Spec Base HvModel.

(** Links lead from [a] through [A] to [b], forwards and backwards. *)
Fixpoint seg (n p : nat -> nat) (a : nat) (A : list nat) (b : nat) : Prop :=
  match A with
  | [] => n a = b /\ p b = a
  | x :: A' => n a = x /\ p x = a /\ seg n p x A' b
  end.

(** The nodes of the circular list through the sentinel 0 are [A]. *)
Definition linked (n p : nat -> nat) (A : list nat) : Prop := seg n p 0 A 0.

Lemma seg_app n p A1 : forall a x A2 b,
  seg n p a (A1 ++ x :: A2) b <-> seg n p a A1 x /\ seg n p x A2 b.
Proof.
  induction A1 as [|y A1 IH]; intros a x A2 b; cbn; [tauto|]. rewrite IH. tauto.
Qed.

Lemma seg_ext n p n' p' A : forall a b,
  (forall x, In x (a :: A) -> n' x = n x) -> (forall x, In x (A ++ [b]) -> p' x = p x) ->
  seg n p a A b -> seg n' p' a A b.
Proof.
  induction A as [|y A IH]; intros a b Hn Hp H; cbn in *.
  - rewrite Hn, Hp by auto. exact H.
  - destruct H as (H1 & H2 & H3). rewrite Hn, Hp by auto. repeat split; auto.
Qed.

Lemma seg_last n p A : forall a b, seg n p a A b -> p b = last A a.
Proof.
  induction A as [|y A IH]; intros a b H; [apply H|]. destruct H as (_ & _ & H).
  apply IH in H. rewrite H. destruct A; [reflexivity|]. cbn. clear. revert n0.
  induction A as [|z A IH]; intros m; [reflexivity|]. cbn. apply IH.
Qed.

Lemma last_In {A} (l : list A) a : In (last l a) (a :: l).
Proof.
  revert a. induction l as [|x l IH]; intros a; [left; reflexivity|].
  destruct l as [|y l]; [right; left; reflexivity|].
  change (last (x :: y :: l) a) with (last (y :: l) a).
  assert (H : last (y :: l) a = last (y :: l) x).
  { clear. revert y. induction l as [|z l IH]; intros y; [reflexivity|]. cbn. apply IH. }
  rewrite H. right. apply IH.
Qed.

Lemma seg_first n p A : forall a b, seg n p a A b -> n a = hd b A.
Proof. intros a b H. destruct A; apply H. Qed.

Lemma hd_In {A} (l : list A) b : In (hd b l) (l ++ [b]).
Proof. destruct l; cbn; auto. Qed.

Lemma seg_remove n p n' p' x A2 b : forall A1 a,
  NoDup (A1 ++ x :: A2) -> ~ In a (A1 ++ x :: A2) -> ~ In b (A1 ++ x :: A2) ->
  (forall y, n' y = if y =? p x then n x else n y) ->
  (forall y, p' y = if y =? n x then p x else p y) ->
  seg n p a (A1 ++ x :: A2) b -> seg n' p' a (A1 ++ A2) b.
Proof.
  induction A1 as [|z A1 IH]; intros a Hnd Ha Hb Hn Hp H.
  - cbn in H. destruct H as (H1 & H2 & H3). cbn [app] in *.
    destruct A2 as [|y A2]; cbn in *.
    + destruct H3 as [H3 H4]. rewrite Hn, Hp, H2, H3, !Nat.eqb_refl. auto.
    + destruct H3 as (H3 & H4 & H5).
      rewrite Hn, Hp, H2, H3, !Nat.eqb_refl. repeat split.
      inversion Hnd as [|? ? Hx Hnd']; subst. inversion Hnd' as [|? ? Hy Hnd'']; subst.
      eapply seg_ext; [| |exact H5].
      * intros w Hw. rewrite Hn. destruct (Nat.eqb_spec w (p (n a))) as [->|]; [|reflexivity].
        exfalso. apply Ha. rewrite H2 in Hw. right. exact Hw.
      * intros w Hw. rewrite Hp. destruct (Nat.eqb_spec w (n (n a))) as [->|]; [|reflexivity].
        exfalso. apply in_app_or in Hw. destruct Hw as [Hw|[Hw|[]]]; [tauto|]. apply Hb. right. left. congruence.
  - cbn [app] in *. cbn in H. destruct H as (H1 & H2 & H3). cbn.
    inversion Hnd as [|? ? Hz Hnd']; subst.
    assert (Hpx : In (p x) (n a :: A1)).
    { apply seg_app in H3. destruct H3 as [H3 _]. rewrite (seg_last _ _ _ _ _ H3). apply last_In. }
    assert (Hnx : In (n x) (A2 ++ [b])).
    { apply seg_app in H3. destruct H3 as [_ H3]. rewrite (seg_first _ _ _ _ _ H3). apply hd_In. }
    rewrite Hn, Hp.
    destruct (Nat.eqb_spec a (p x)) as [He|_].
    { exfalso. apply Ha. rewrite He. destruct Hpx as [Hpx|Hpx]; [left; congruence|].
      right. apply in_or_app. left. exact Hpx. }
    destruct (Nat.eqb_spec (n a) (n x)) as [He|_].
    { exfalso. rewrite He in *. apply in_app_or in Hnx. destruct Hnx as [Hnx|[Hnx|[]]].
      - apply Hz. apply in_or_app. right. right. exact Hnx.
      - apply Hb. left. congruence. }
    repeat split; [exact H2|].
    apply IH; auto. intros Hin. apply Hb. right. exact Hin.
Qed.

Lemma seg_around n p A1 x A2 a b : NoDup (A1 ++ x :: A2) -> ~ In a (A1 ++ x :: A2) -> ~ In b (A1 ++ x :: A2) ->
  seg n p a (A1 ++ x :: A2) b ->
  n (p x) = x /\ p (n x) = x /\ p x <> x /\ n x <> x.
Proof.
  intros Hnd Ha Hb H. apply seg_app in H. destruct H as [H1 H2].
  pose proof (seg_last _ _ _ _ _ H1) as Hp. pose proof (seg_first _ _ _ _ _ H2) as Hn.
  pose proof (last_In A1 a) as Hpi. pose proof (hd_In A2 b) as Hni.
  assert (Hxa : x <> a) by (intros ->; apply Ha; apply in_or_app; right; left; reflexivity).
  assert (Hxb : x <> b) by (intros ->; apply Hb; apply in_or_app; right; left; reflexivity).
  apply NoDup_remove_2 in Hnd.
  repeat split.
  - destruct A1 as [|y A1] using rev_ind; [destruct H1; congruence|].
    rewrite last_last in Hp. rewrite Hp. apply seg_app in H1. destruct H1 as [_ [H1 _]]. exact H1.
  - rewrite Hn. destruct A2 as [|y A2]; apply H2.
  - rewrite Hp. intros He. rewrite He in Hpi. destruct Hpi as [Hpi|Hpi]; [congruence|].
    apply Hnd. apply in_or_app. left. exact Hpi.
  - rewrite Hn. intros He. rewrite He in Hni. apply in_app_or in Hni. destruct Hni as [Hni|[Hni|[]]]; [|congruence].
    apply Hnd. apply in_or_app. right. exact Hni.
Qed.

(** The links of a heap. *)
Definition links : Type := ((nat -> nat -> nat) * (nat -> nat -> nat)).
Definition links_of (h : heap) : links := (nx h, pv h).
Definition leq (l l' : links) : Prop := forall i x, fst l i x = fst l' i x /\ snd l i x = snd l' i x.

Lemma leq_refl l : leq l l.
Proof. intros i x. auto. Qed.
Lemma leq_sym l l' : leq l l' -> leq l' l.
Proof. intros H i x. destruct (H i x). auto. Qed.
Lemma leq_trans l l' l'' : leq l l' -> leq l' l'' -> leq l l''.
Proof. intros H H' i x. destruct (H i x), (H' i x). split; congruence. Qed.

(** Removal of [x] from the lists below [d]. *)
Definition rm (d x : nat) (l : links) : links :=
  (fun i y => if (i <? d) && (y =? snd l i x) then fst l i x else fst l i y,
   fun i y => if (i <? d) && (y =? fst l i x) then snd l i x else snd l i y).
Definition ins (d x : nat) (l : links) : links :=
  (fun i y => if (i <? d) && (y =? snd l i x) then x else fst l i y,
   fun i y => if (i <? d) && (y =? fst l i x) then x else snd l i y).

Lemma rm_leq d x l l' : leq l l' -> leq (rm d x l) (rm d x l').
Proof.
  intros H i y. unfold rm. cbn [fst snd]. destruct (H i x) as [Ha Hb]. destruct (H i y) as [Hc Hd].
  rewrite Ha, Hb, Hc, Hd. auto.
Qed.

Lemma ins_leq d x l l' : leq l l' -> leq (ins d x l) (ins d x l').
Proof.
  intros H i y. unfold ins. cbn [fst snd]. destruct (H i x) as [Ha Hb]. destruct (H i y) as [Hc Hd].
  rewrite Ha, Hb, Hc, Hd. auto.
Qed.

Lemma ins_rm d x l :
  (forall i, i < d -> fst l i (snd l i x) = x /\ snd l i (fst l i x) = x /\ snd l i x <> x /\ fst l i x <> x) ->
  leq (ins d x (rm d x l)) l.
Proof.
  intros H i y. unfold ins, rm. cbn [fst snd]. destruct (Nat.ltb_spec i d) as [Hi|Hi]; cbn [andb]; [|auto].
  destruct (H i Hi) as (H1 & H2 & H3 & H4).
  destruct (Nat.eqb_spec x (fst l i x)) as [He|_]; [congruence|].
  destruct (Nat.eqb_spec x (snd l i x)) as [He|_]; [congruence|].
  destruct (Nat.eqb_spec y (snd l i x)) as [Hy|Hy], (Nat.eqb_spec y (fst l i x)) as [Hz|Hz];
    split; congruence.
Qed.

Lemma rm_linked d x l i A1 A2 : i < d -> NoDup (A1 ++ x :: A2) -> ~ In 0 (A1 ++ x :: A2) ->
  linked (fst l i) (snd l i) (A1 ++ x :: A2) ->
  linked (fst (rm d x l) i) (snd (rm d x l) i) (A1 ++ A2).
Proof.
  intros Hi Hnd H0 H. unfold linked in *. eapply seg_remove; eauto.
  - intros y. cbn [rm fst snd]. destruct (Nat.ltb_spec i d); [|lia]. reflexivity.
  - intros y. cbn [rm fst snd]. destruct (Nat.ltb_spec i d); [|lia]. reflexivity.
Qed.

Lemma linked_leq l l' i A : leq l l' -> linked (fst l i) (snd l i) A -> linked (fst l' i) (snd l' i) A.
Proof.
  intros H. unfold linked. apply seg_ext; intros x _; destruct (H i x); congruence.
Qed.

Section Ops.
  Variable pts : list vec.

  (** Effect of remove/reinsert on the heap: links as above, bounds lowered, rest unchanged. *)
  Record only_links_bounds (h h' : heap) (d x : nat) : Prop := {
    olb_ign : forall y, ign h' y = ign h y;
    olb_area : forall i y, area h' i y = area h i y;
    olb_vol : forall i y, vol h' i y = vol h i y;
    olb_bnd_lo : forall i, i < d -> bnd h' i = Z.min (bnd h i) (coord pts i x);
    olb_bnd_hi : forall i, d <= i -> bnd h' i = bnd h i
  }.

  Lemma fupd2_at {B} (m : nat -> nat -> B) i k v j y :
    fupd2 m i k v j y = if (j =? i) && (y =? k) then v else m j y.
  Proof. reflexivity. Qed.

  Lemma lower_bound_ok h x i : cg pts x i <> None -> exists h',
    lower_bound pts h x i = Some h' /\ nx h' = nx h /\ pv h' = pv h /\ ign h' = ign h /\
    area h' = area h /\ vol h' = vol h /\
    (forall j, bnd h' j = if (j =? i)%nat then Z.min (bnd h i) (coord pts i x) else bnd h j).
  Proof.
    intros H. unfold lower_bound, coord. destruct (cg pts x i) as [c|]; [|congruence].
    eexists. split; [reflexivity|]. destruct (Z.ltb_spec c (bnd h i)); cbn; repeat split; auto;
      intros j; unfold fupd; destruct (Nat.eqb_spec j i); subst; lia.
  Qed.

  Lemma remove_ok d x h : (forall i, i < d -> cg pts x i <> None) -> exists h',
    remove pts x d h = Some h' /\ only_links_bounds h h' d x /\ leq (links_of h') (rm d x (links_of h)).
  Proof.
    induction d as [|d IH]; intros H.
    - exists h. split; [reflexivity|]. split; [constructor; auto; intros; lia|].
      intros i y. cbn. auto.
    - destruct IH as (h1 & E1 & B1 & L1); [intros; apply H; lia|].
      unfold remove in *. cbn [for_range]. rewrite E1. unfold remove1.
      match goal with |- context [lower_bound pts ?g x d] => set (hh := g) end.
      destruct (lower_bound_ok hh x d (H d ltac:(lia))) as (h2 & E2 & N2 & P2 & I2 & A2 & V2 & B2).
      exists h2. split; [exact E2|]. destruct B1 as [b1 b2 b3 b4 b5]. split.
      + constructor.
        * intros y. rewrite I2. cbn. apply b1.
        * intros i y. rewrite A2. cbn. apply b2.
        * intros i y. rewrite V2. cbn. apply b3.
        * intros i Hi. rewrite B2. destruct (Nat.eqb_spec i d) as [->|Hne].
          -- cbn. rewrite b5 by lia. reflexivity.
          -- cbn. apply b4. lia.
        * intros i Hi. rewrite B2. destruct (Nat.eqb_spec i d); [lia|]. cbn. apply b5. lia.
      + intros i y. cbn [links_of ins rm fst snd]. rewrite N2, P2. cbn [hh set_nx set_pv nx pv]. rewrite !fupd2_at.
        destruct (L1 i y) as [La Lb]. destruct (L1 i x) as [Lc Ld]. cbn [links_of ins rm fst snd] in La, Lb, Lc, Ld.
        destruct (Nat.eqb_spec i d) as [->|Hne]; cbn [andb].
        * destruct (Nat.ltb_spec d (S d)); [|lia]. cbn [andb].
          rewrite (Nat.ltb_irrefl d) in *. cbn [andb] in *. rewrite La, Lb, Lc, Ld. auto.
        * assert (Hd : (i <? S d) = (i <? d)).
          { destruct (Nat.ltb_spec i d), (Nat.ltb_spec i (S d)); auto; lia. }
          rewrite Hd. auto.
  Qed.

  Lemma reinsert_ok d x h : (forall i, i < d -> cg pts x i <> None) ->
    (forall i, i < d -> pv h i x <> x) -> exists h',
    reinsert pts x d h = Some h' /\ only_links_bounds h h' d x /\ leq (links_of h') (ins d x (links_of h)).
  Proof.
    induction d as [|d IH]; intros H Hpv.
    - exists h. split; [reflexivity|]. split; [constructor; auto; intros; lia|].
      intros i y. cbn. auto.
    - destruct IH as (h1 & E1 & B1 & L1); [intros; apply H; lia | intros; apply Hpv; lia |].
      unfold reinsert in *. cbn [for_range]. rewrite E1. unfold reinsert1.
      match goal with |- context [lower_bound pts ?g x d] => set (hh := g) end.
      destruct (lower_bound_ok hh x d (H d ltac:(lia))) as (h2 & E2 & N2 & P2 & I2 & A2 & V2 & B2).
      exists h2. split; [exact E2|]. destruct B1 as [b1 b2 b3 b4 b5]. split.
      + constructor.
        * intros y. rewrite I2. cbn. apply b1.
        * intros i y. rewrite A2. cbn. apply b2.
        * intros i y. rewrite V2. cbn. apply b3.
        * intros i Hi. rewrite B2. destruct (Nat.eqb_spec i d) as [->|Hne].
          -- cbn. rewrite b5 by lia. reflexivity.
          -- cbn. apply b4. lia.
        * intros i Hi. rewrite B2. destruct (Nat.eqb_spec i d); [lia|]. cbn. apply b5. lia.
      + intros i y. cbn [links_of ins rm fst snd]. rewrite N2, P2. cbn [hh set_nx set_pv nx pv]. rewrite !fupd2_at.
        destruct (L1 i y) as [La Lb]. destruct (L1 i x) as [Lc Ld]. cbn [links_of ins rm fst snd] in La, Lb, Lc, Ld.
        destruct (Nat.eqb_spec i d) as [->|Hne]; cbn [andb].
        * destruct (Nat.ltb_spec d (S d)); [|lia]. cbn [andb].
          rewrite (Nat.ltb_irrefl d) in *. cbn [andb] in *.
          rewrite Nat.eqb_refl. cbn. rewrite La, Lb, Ld.
          destruct (Nat.eqb_spec x (pv h d x)) as [He|_].
          { exfalso. apply (Hpv d ltac:(lia)). symmetry. exact He. }
          rewrite Lc. auto.
        * assert (Hd : (i <? S d) = (i <? d)).
          { destruct (Nat.ltb_spec i d), (Nat.ltb_spec i (S d)); auto; lia. }
          rewrite Hd. auto.
  Qed.
End Ops.
