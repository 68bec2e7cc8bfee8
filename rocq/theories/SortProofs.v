From Verif Require Import Spec Base SortModel.

Lemma insert_by_perm {A} (le : A -> A -> bool) a l : Permutation (insert_by le a l) (a :: l).
Proof.
  induction l as [|b l IH]; simpl; auto.
  destruct (le a b); auto. rewrite IH. apply perm_swap.
Qed.

Lemma stable_sort_perm {A} (le : A -> A -> bool) l : Permutation (stable_sort le l) l.
Proof.
  induction l as [|a l IH]; simpl; auto. rewrite insert_by_perm. now constructor.
Qed.

Lemma stable_sort_length {A} (le : A -> A -> bool) l : length (stable_sort le l) = length l.
Proof. apply Permutation_length, stable_sort_perm. Qed.

Lemma stable_sort_In {A} (le : A -> A -> bool) l x : In x (stable_sort le l) <-> In x l.
Proof.
  split; apply Permutation_in; [|apply Permutation_sym]; apply stable_sort_perm.
Qed.

Section Total.
  Context {A : Type} (le : A -> A -> bool) (D : A -> Prop).
  Hypothesis le_total : forall a b, D a -> D b -> le a b = false -> le b a = true.
  Hypothesis le_trans : forall a b c, D a -> D b -> D c -> le a b = true -> le b c = true -> le a c = true.

  Lemma insert_by_sorted a l : D a -> Forall D l ->
    StronglySorted (fun x y => le x y = true) l ->
    StronglySorted (fun x y => le x y = true) (insert_by le a l).
  Proof.
    intros Ha HD Hs. induction Hs as [|b l Hs IH Hf]; simpl; [repeat constructor|].
    inversion HD; subst. destruct (le a b) eqn:E.
    - constructor; [constructor; auto|]. constructor; auto.
      rewrite Forall_forall in *. intros x Hx. apply le_trans with b; auto.
    - constructor; auto. apply Forall_forall. intros x Hx.
      eapply Permutation_in in Hx; [|apply insert_by_perm].
      destruct Hx as [<-|Hx]; [auto|]. rewrite Forall_forall in Hf. auto.
  Qed.

  Lemma stable_sort_sorted l : Forall D l ->
    StronglySorted (fun x y => le x y = true) (stable_sort le l).
  Proof.
    induction 1 as [|a l Ha HD IH]; simpl; [constructor|].
    apply insert_by_sorted; auto. apply Forall_forall. intros x Hx.
    apply stable_sort_In in Hx. rewrite Forall_forall in HD. auto.
  Qed.
End Total.

Lemma StronglySorted_app_inv {A} (R : A -> A -> Prop) l l' :
  StronglySorted R (l ++ l') -> forall x y, In x l -> In y l' -> R x y.
Proof.
  induction l as [|a l IH]; simpl; intros Hs x y Hx Hy; [destruct Hx|].
  inversion Hs; subst. destruct Hx as [<-|Hx]; [|eauto].
  rewrite Forall_forall in H2. apply H2. apply in_or_app. auto.
Qed.

Lemma StronglySorted_nth {A} (R : A -> A -> Prop) l : StronglySorted R l ->
  forall i j x y, i < j -> nth_error l i = Some x -> nth_error l j = Some y -> R x y.
Proof.
  induction 1 as [|a l Hs IH Hf]; intros i j x y Hij Hx Hy; [destruct i; discriminate|].
  destruct j as [|j]; [lia|]. destruct i as [|i]; simpl in Hx, Hy.
  - injection Hx as <-. rewrite Forall_forall in Hf. apply Hf. eapply nth_error_In; eauto.
  - apply (IH i j x y); auto. lia.
Qed.

(** Stability: among elements that compare equal both ways the original order is kept. *)
Lemma insert_by_filter {A} (le : A -> A -> bool) (p : A -> bool) a l :
  (forall b, In b l -> p a = true -> p b = true -> le a b = true) ->
  filter p (insert_by le a l) = filter p (a :: l).
Proof.
  induction l as [|b l IH]; intros H; [reflexivity|].
  cbn [insert_by]. destruct (le a b) eqn:E; [reflexivity|].
  cbn [filter]. rewrite IH; [|intros c Hc; apply H; now right]. cbn [filter].
  destruct (p b) eqn:Eb; destruct (p a) eqn:Ea; auto.
  rewrite (H b) in E; auto; [discriminate|now left].
Qed.

Lemma stable_sort_filter {A} (le : A -> A -> bool) (p : A -> bool) l :
  (forall a b, In a l -> In b l -> p a = true -> p b = true -> le a b = true) ->
  filter p (stable_sort le l) = filter p l.
Proof.
  induction l as [|a l IH]; intros H; [reflexivity|].
  cbn [stable_sort fold_right]. fold (stable_sort le l). rewrite insert_by_filter.
  - cbn [filter]. rewrite IH; auto. intros x y Hx Hy. apply H; now right.
  - intros b Hb. apply H; [now left|right]. now apply stable_sort_In in Hb.
Qed.
