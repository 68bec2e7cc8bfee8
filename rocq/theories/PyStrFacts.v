(** Facts about the string helpers of PyStr.v. *)
Require Import String Ascii List Arith NArith Lia Bool Permutation Sorting.Sorted.
From Verif Require Import PyStr.
Import ListNotations.
Open Scope string_scope.

Fixpoint lacks (c : ascii) (s : string) : Prop :=
  match s with
  | EmptyString => True
  | String x r => x <> c /\ lacks c r
  end.

Lemma split_nonempty : forall c s, split c s <> [].
Proof.
  intros c s; destruct s as [|x r]; cbn; [discriminate|].
  destruct (Ascii.eqb x c); [discriminate|]. destruct (split c r); discriminate.
Qed.

Lemma split_lacks : forall c s, lacks c s -> split c s = [s].
Proof.
  intros c; induction s as [|x r IH]; cbn; [reflexivity|]. intros [Hx Hr].
  destruct (Ascii.eqb_spec x c) as [E|_]; [congruence|]. now rewrite IH.
Qed.

Lemma split_cons : forall c s r, lacks c s -> split c (s ++ String c r) = s :: split c r.
Proof.
  intros c; induction s as [|x s IH]; intros r H.
  - cbn. now rewrite Ascii.eqb_refl.
  - destruct H as [Hx Hs]. cbn. destruct (Ascii.eqb_spec x c) as [E|_]; [congruence|].
    now rewrite IH.
Qed.

Lemma concat_cons : forall sep a b l,
  String.concat sep (a :: b :: l) = a ++ sep ++ String.concat sep (b :: l).
Proof. reflexivity. Qed.

Lemma split_join : forall c l, l <> [] -> Forall (lacks c) l ->
  split c (join (String c "") l) = l.
Proof.
  intros c l Hne HF. induction l as [|a l IH]; [congruence|].
  inversion HF as [|? ? Ha Hl]; subst. destruct l as [|b l].
  - unfold join; cbn. now apply split_lacks.
  - unfold join. rewrite concat_cons. cbn [append]. rewrite split_cons by assumption.
    f_equal. apply IH; [discriminate|assumption].
Qed.

Lemma str_in_iff : forall s l, str_in s l = true <-> In s l.
Proof.
  intros s l; unfold str_in; rewrite existsb_exists; split.
  - intros [x [H E]]. apply String.eqb_eq in E. now subst.
  - intro H. exists s. split; [assumption|]. apply String.eqb_refl.
Qed.

(** * Sorting *)
Section Sorted.
  Context {A : Type} (leb : A -> A -> bool).

  Lemma insert_by_perm : forall x l, Permutation (x :: l) (insert_by leb x l).
  Proof.
    intros x; induction l as [|y l IH]; cbn; [constructor; constructor|].
    destruct (leb x y); [apply Permutation_refl|].
    eapply perm_trans; [apply perm_swap|]. now constructor.
  Qed.

  Lemma sort_by_perm : forall l, Permutation l (sort_by leb l).
  Proof.
    induction l as [|x l IH]; cbn; [constructor|].
    eapply perm_trans; [constructor; apply IH|apply insert_by_perm].
  Qed.

  Lemma sort_by_in : forall l x, In x (sort_by leb l) <-> In x l.
  Proof.
    intros l x; split; intro H.
    - eapply Permutation_in; [apply Permutation_sym, sort_by_perm|assumption].
    - eapply Permutation_in; [apply sort_by_perm|assumption].
  Qed.

  Hypothesis total : forall x y, leb x y = true \/ leb y x = true.
  Hypothesis trans : forall x y z, leb x y = true -> leb y z = true -> leb x z = true.

  Definition le_by (x y : A) : Prop := leb x y = true.

  Lemma insert_by_sorted : forall x l, StronglySorted le_by l ->
    StronglySorted le_by (insert_by leb x l).
  Proof.
    intros x; induction l as [|y l IH]; cbn; intro H; [repeat constructor|].
    inversion H as [|? ? Hs Hf]; subst. destruct (leb x y) eqn:E.
    - constructor; [assumption|]. constructor; [exact E|].
      eapply Forall_impl; [|exact Hf]. intros z Hz. eapply trans; eassumption.
    - constructor; [now apply IH|]. apply Forall_forall. intros z Hz.
      apply (Permutation_in z (Permutation_sym (insert_by_perm x l))) in Hz.
      destruct Hz as [->|Hz].
      + destruct (total z y); [congruence|assumption].
      + rewrite Forall_forall in Hf. now apply Hf.
  Qed.

  Lemma sort_by_sorted : forall l, StronglySorted le_by (sort_by leb l).
  Proof.
    induction l as [|x l IH]; cbn; [constructor|]. now apply insert_by_sorted.
  Qed.
End Sorted.

(** * The order of strings *)
Lemma str_leb_refl : forall a, str_leb a a = true.
Proof.
  induction a as [|x a IH]; cbn [str_leb]; [reflexivity|]. now rewrite Nat.ltb_irrefl.
Qed.

Lemma str_leb_total : forall a b, str_leb a b = true \/ str_leb b a = true.
Proof.
  induction a as [|x a IH]; intros [|y b]; cbn [str_leb]; auto.
  destruct (Nat.ltb_spec (nat_of_ascii x) (nat_of_ascii y)); auto.
  destruct (Nat.ltb_spec (nat_of_ascii y) (nat_of_ascii x)); auto.
Qed.

Lemma str_leb_trans : forall a b c, str_leb a b = true -> str_leb b c = true ->
  str_leb a c = true.
Proof.
  induction a as [|x a IH]; intros [|y b] [|z c]; cbn [str_leb]; auto; try discriminate.
  destruct (Nat.ltb_spec (nat_of_ascii x) (nat_of_ascii y)),
    (Nat.ltb_spec (nat_of_ascii y) (nat_of_ascii z)),
    (Nat.ltb_spec (nat_of_ascii y) (nat_of_ascii x)),
    (Nat.ltb_spec (nat_of_ascii z) (nat_of_ascii y)),
    (Nat.ltb_spec (nat_of_ascii x) (nat_of_ascii z)),
    (Nat.ltb_spec (nat_of_ascii z) (nat_of_ascii x)); try discriminate; try lia; auto.
  apply IH.
Qed.

Lemma nat_of_ascii_inj : forall x y, nat_of_ascii x = nat_of_ascii y -> x = y.
Proof.
  intros x y H. rewrite <- (ascii_nat_embedding x), <- (ascii_nat_embedding y). now rewrite H.
Qed.

Lemma str_leb_antisym : forall a b, str_leb a b = true -> str_leb b a = true -> a = b.
Proof.
  induction a as [|x a IH]; intros [|y b]; cbn [str_leb]; auto; try discriminate.
  destruct (Nat.ltb_spec (nat_of_ascii x) (nat_of_ascii y)),
    (Nat.ltb_spec (nat_of_ascii y) (nat_of_ascii x)); try discriminate; try lia.
  intros H1 H2. f_equal; [apply nat_of_ascii_inj; lia|now apply IH].
Qed.

(** * Concatenation *)
Lemma app_nil_r_s : forall s, s ++ "" = s.
Proof. induction s as [|x s IH]; cbn; [reflexivity|now rewrite IH]. Qed.

Lemma app_assoc_s : forall a b c : string, (a ++ b) ++ c = a ++ b ++ c.
Proof. induction a as [|x a IH]; intros; cbn; [reflexivity|now rewrite IH]. Qed.

Lemma app_inj_r : forall c a b : string, a ++ c = b ++ c -> a = b.
Proof.
  intros c a b H.
  assert (L : String.length a = String.length b).
  { assert (E : forall s, String.length (s ++ c) = String.length s + String.length c).
    { induction s as [|x s IH]; cbn; [reflexivity|now rewrite IH]. }
    assert (String.length (a ++ c) = String.length (b ++ c)) by now rewrite H.
    rewrite !E in H0. lia. }
  revert b H L. induction a as [|x a IH]; intros [|y b] H L; cbn in *; try lia; auto.
  inversion H; subst. f_equal. apply IH; [assumption|lia].
Qed.

Lemma app_inj_l : forall a b c : string, a ++ b = a ++ c -> b = c.
Proof. induction a as [|x a IH]; cbn; intros b c H; [assumption|]. inversion H; auto. Qed.
