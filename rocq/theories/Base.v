(** Generic list lemmas used by several proof files (no model content). *)
From Verif Require Export Spec.

Lemma filter_filter {A} (f g : A -> bool) l :
  filter f (filter g l) = filter (fun x => g x && f x) l.
Proof.
  induction l as [|x l IH]; simpl; [reflexivity|].
  destruct (g x); simpl; [destruct (f x); rewrite IH; reflexivity | exact IH].
Qed.

Lemma filter_ext_In {A} (f g : A -> bool) l :
  (forall x, In x l -> f x = g x) -> filter f l = filter g l.
Proof.
  induction l as [|x l IH]; simpl; intros H; [reflexivity|].
  rewrite (H x) by (left; reflexivity).
  rewrite IH by (intros; apply H; right; assumption). reflexivity.
Qed.

Lemma filter_all {A} (f : A -> bool) l :
  (forall x, In x l -> f x = true) -> filter f l = l.
Proof.
  induction l as [|x l IH]; simpl; intros H; [reflexivity|].
  rewrite (H x) by (left; reflexivity).
  rewrite IH by (intros; apply H; right; assumption). reflexivity.
Qed.

Lemma filter_none {A} (f : A -> bool) l :
  (forall x, In x l -> f x = false) -> filter f l = [].
Proof.
  induction l as [|x l IH]; simpl; intros H; [reflexivity|].
  rewrite (H x) by (left; reflexivity). apply IH. intros; apply H; right; assumption.
Qed.

Lemma filter_partition_perm {A} (f : A -> bool) l :
  Permutation (filter f l ++ filter (fun x => negb (f x)) l) l.
Proof.
  induction l as [|x l IH]; simpl; [constructor|].
  destruct (f x); simpl.
  - constructor. exact IH.
  - eapply Permutation_trans.
    + apply Permutation_sym, Permutation_middle.
    + constructor. exact IH.
Qed.

Lemma filter_perm {A} (f : A -> bool) l l' :
  Permutation l l' -> Permutation (filter f l) (filter f l').
Proof.
  induction 1 as [|x l l' H IH|x y l|l1 l2 l3 H1 IH1 H2 IH2]; simpl.
  - constructor.
  - destruct (f x); [constructor|]; assumption.
  - destruct (f x), (f y); try constructor; apply Permutation_refl.
  - eapply Permutation_trans; eassumption.
Qed.

Lemma filter_length_le {A} (f : A -> bool) l : length (filter f l) <= length l.
Proof. induction l as [|x l IH]; simpl; [lia|]. destruct (f x); simpl; lia. Qed.

Lemma filter_length_lt {A} (f : A -> bool) l x :
  In x l -> f x = false -> length (filter f l) < length l.
Proof.
  induction l as [|y l IH]; simpl; intros Hin Hf; [contradiction|].
  destruct Hin as [->|Hin].
  - rewrite Hf. pose proof (filter_length_le f l). lia.
  - destruct (f y); simpl; specialize (IH Hin Hf); lia.
Qed.

Lemma forallb_false_exists {A} (f : A -> bool) l :
  forallb f l = false <-> exists x, In x l /\ f x = false.
Proof.
  induction l as [|x l IH]; simpl.
  - split; [discriminate|]. intros (y & H & _). contradiction.
  - rewrite andb_false_iff, IH. split.
    + intros [H|(y & Hin & Hy)]; [exists x|exists y]; auto.
    + intros (y & [->|Hin] & Hy); [left; exact Hy | right; exists y; auto].
Qed.

Lemma Forall2_length' {A B} (R : A -> B -> Prop) l l' : Forall2 R l l' -> length l = length l'.
Proof. induction 1 as [|a b l l' H H' IH]; simpl; congruence. Qed.

Lemma Forall2_nth_error {A B} (R : A -> B -> Prop) l l' :
  Forall2 R l l' <->
  length l = length l' /\
  forall i x y, nth_error l i = Some x -> nth_error l' i = Some y -> R x y.
Proof.
  split.
  - intros H. split; [eapply Forall2_length'; eassumption|].
    induction H as [|a b l l' Hab H IH]; intros [|i] x y; simpl; intros Hx Hy; try discriminate.
    + injection Hx as <-. injection Hy as <-. exact Hab.
    + eapply IH; eassumption.
  - revert l'. induction l as [|a l IH]; intros [|b l'] [Hlen H]; simpl in Hlen; try discriminate.
    + constructor.
    + constructor.
      * apply (H 0); reflexivity.
      * apply IH. split; [lia|]. intros i x y Hx Hy. apply (H (S i)); assumption.
Qed.

Lemma nth_error_In' {A} (l : list A) i x : nth_error l i = Some x -> In x l.
Proof. apply nth_error_In. Qed.

Lemma Forall2_impl {A B} (R R' : A -> B -> Prop) l l' :
  (forall a b, R a b -> R' a b) -> Forall2 R l l' -> Forall2 R' l l'.
Proof. intros H. induction 1 as [|a b l l' Hab H' IH]; constructor; auto. Qed.

Lemma NoDup_app_disj {A} (l l' : list A) :
  NoDup l -> NoDup l' -> (forall x, In x l -> ~ In x l') -> NoDup (l ++ l').
Proof.
  induction l as [|a l IH]; intros H H' HD; [auto|].
  inversion H; subst. simpl. constructor.
  - rewrite in_app_iff. intros [Ha|Ha]; [auto|]. exact (HD a (or_introl eq_refl) Ha).
  - apply IH; auto. intros x Hx. apply HD. now right.
Qed.

Lemma nth_error_Some' {A} (l : list A) i x : nth_error l i = Some x -> i < length l.
Proof. intros H. apply nth_error_Some. congruence. Qed.

Lemma NoDup_app_inv {A} (l l' : list A) :
  NoDup (l ++ l') -> NoDup l /\ NoDup l' /\ (forall x, In x l -> ~ In x l').
Proof.
  induction l as [|a l IH]; intros H; cbn in H; [repeat split; [constructor | exact H | intros x []]|].
  inversion H as [|? ? Ha H']; subst. destruct (IH H') as (H1 & H2 & H3). repeat split; auto.
  - constructor; [|exact H1]. intros Hin. apply Ha, in_or_app. left. exact Hin.
  - intros x [<-|Hx] Hin; [|exact (H3 x Hx Hin)]. apply Ha, in_or_app. right. exact Hin.
Qed.
