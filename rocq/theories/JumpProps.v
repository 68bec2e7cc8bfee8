(** C168: what gene jumping does to the genes. *)
From Verif Require Import Spec VarModel VarSpec VarProofs JumpSpec.
From Coq Require Import QArith Lqa Sorted.
Local Open Scope Q_scope.

Lemma pick_all_genes l : forall idx t, pick_all l idx = Some t -> t = genes_at l idx.
Proof.
  induction idx as [|i idx IH]; intros t E; cbn [pick_all] in E; [now injection E as <-|].
  destruct (nth_error l i) as [a|] eqn:Ea; [|discriminate]. destruct (pick_all l idx) as [r|]; [|discriminate]. injection E as <-.
  cbn [genes_at map]. f_equal; [symmetry; now apply nth_error_nth | now apply IH].
Qed.
Lemma left_over_above l : forall k i idx, (i < k)%nat -> left_over k l (i :: idx) = left_over k l idx.
Proof.
  induction l as [|a l IH]; intros k i idx H; cbn [left_over existsb]; [reflexivity|].
  replace (k =? i)%nat with false by (symmetry; apply Nat.eqb_neq; lia). cbn [orb]. rewrite IH by lia. reflexivity.
Qed.
Lemma not_member k idx : Forall (fun x => (k < x)%nat) idx -> existsb (Nat.eqb k) idx = false.
Proof. induction 1 as [|x idx H _ IH]; cbn [existsb]; [reflexivity|]. rewrite IH. replace (k =? x)%nat with false by (symmetry; apply Nat.eqb_neq; lia). reflexivity. Qed.
Lemma del_left_over idx i : Forall (fun x => (i < x)%nat) idx -> forall l k, (k <= i < k + length l)%nat ->
  del_nth (i - k) (left_over k l idx) = Some (left_over k l (i :: idx)) /\
  nth_error (left_over k l idx) (i - k) = nth_error l (i - k).
Proof.
  intros F. induction l as [|a l IH]; intros k H; cbn [length] in H; [lia|]. cbn [left_over].
  assert (Fk : existsb (Nat.eqb k) idx = false) by (apply not_member; eapply Forall_impl; [|exact F]; intros x Hx; cbv beta in Hx; lia).
  rewrite Fk. destruct (Nat.eq_dec k i) as [->|N].
  - rewrite Nat.sub_diag. cbn [existsb]. rewrite Nat.eqb_refl. cbn [orb del_nth nth_error]. rewrite left_over_above by lia. auto.
  - cbn [existsb]. replace (k =? i)%nat with false by (symmetry; apply Nat.eqb_neq; lia). rewrite Fk. cbn [orb].
    replace (i - k)%nat with (S (i - S k)) by lia. cbn [del_nth nth_error]. destruct (IH (S k) ltac:(lia)) as (-> & ->). auto.
Qed.
Lemma left_over_nil l : forall k, left_over k l [] = l.
Proof. induction l as [|a l IH]; intros k; cbn; [reflexivity | now rewrite IH]. Qed.
Lemma del_perm {A} : forall i (l r : list A) a, del_nth i l = Some r -> nth_error l i = Some a -> Permutation (a :: r) l.
Proof.
  induction i as [|i IH]; intros [|b l] r a E H; try discriminate; cbn [del_nth nth_error] in *.
  - injection E as <-. injection H as ->. apply Permutation_refl.
  - destruct (del_nth i l) as [r'|] eqn:E'; [|discriminate]. injection E as <-. eapply Permutation_trans; [apply perm_swap|]. constructor. now apply IH.
Qed.
Lemma multi_delete_genes (l : list Q) : forall idx, StronglySorted lt idx -> Forall (fun i => (i < length l)%nat) idx ->
  multi_delete l idx = Some (left_over 0 l idx) /\ Permutation (genes_at l idx ++ left_over 0 l idx) l.
Proof.
  induction idx as [|i idx IH]; intros S F.
  - cbn [genes_at map app]. rewrite left_over_nil. split; [reflexivity | apply Permutation_refl].
  - inversion S as [|? ? S' Hi]; subst. inversion F as [|? ? Fi F']; subst. destruct (IH S' F') as (E & P).
    destruct (del_left_over idx i Hi l 0 ltac:(lia)) as (D & N). rewrite Nat.sub_0_r in D, N. split.
    + unfold multi_delete in *. cbn [rev]. rewrite fold_left_app, E. cbn [fold_left]. exact D.
    + cbn [genes_at map app]. destruct (nth_error l i) as [a|] eqn:Ea; [|apply nth_error_None in Ea; lia].
      rewrite (nth_error_nth l i 0 Ea). fold (genes_at l idx).
      eapply Permutation_trans; [apply Permutation_middle|]. eapply Permutation_trans; [|exact P]. apply Permutation_app_head. exact (del_perm _ _ _ _ D N).
Qed.
Lemma convert_shares : forall dims x r, length x = length dims -> convert_to_ratio dims x = Some r -> shares dims x r.
Proof.
  induction dims as [|(lb, ub) dims IH]; intros [|a x] r L E; try discriminate; cbn [convert_to_ratio] in E; [now injection E as <-|].
  destruct (Qeq_bool (ub - lb) 0) eqn:Eq; [discriminate|]. destruct (convert_to_ratio dims x) as [r'|] eqn:E'; [|discriminate]. injection E as <-.
  cbn [shares]. split; [|apply IH; [cbn in L; lia | exact E']]. field. intros H. apply Qeq_bool_iff in H. congruence.
Qed.
Lemma decode_shares : forall dims r x, length r = length dims -> decode_ratio dims r = Some x -> shares dims x r.
Proof.
  induction dims as [|(lb, ub) dims IH]; intros [|a r] x L E; try discriminate; cbn [decode_ratio] in E; [now injection E as <-|].
  destruct (decode_ratio dims r) as [x'|] eqn:E'; [|discriminate]. injection E as <-. cbn [shares]. split; [reflexivity|].
  apply IH; [cbn in L; lia | exact E'].
Qed.
Lemma shares_length : forall dims x r, shares dims x r -> length x = length dims /\ length r = length dims.
Proof.
  induction dims as [|(lb, ub) dims IH]; intros [|a x] [|s r] H; cbn [shares] in H; try contradiction; [auto|].
  destruct (IH x r (proj2 H)). cbn [length]. auto.
Qed.
Lemma prepare_genes dims x pos r t : length x = length dims -> prepare_transposon dims x pos = Some (r, t) ->
  shares dims x r /\ t = genes_at r pos.
Proof.
  intros L E. unfold prepare_transposon in E. destruct (convert_to_ratio dims x) as [r'|] eqn:Ec; [|discriminate].
  destruct (pick_all r' pos) as [t'|] eqn:Ep; [|discriminate]. injection E as <- <-.
  split; [now apply convert_shares | now apply pick_all_genes].
Qed.
Lemma box_length dims x : in_qbox dims x -> length x = length dims.
Proof. unfold in_qbox. induction 1; cbn [length]; congruence. Qed.
Lemma genes_at_length r pos : length (genes_at r pos) = length pos.
Proof. apply map_length. Qed.

(** Cut and paste: each child is what is left of one parent with the genes cut out of the other inserted, in one piece, at
    the drawn place - at the same share of the way between the bounds of their new dimensions. *)
Theorem C168_cut_and_paste :
  forall (dims : list (Q * Q)) (xpos ypos : list nat) (xi yi : nat) (x y : list Q),
    Forall (fun p => fst p < snd p) dims -> in_qbox dims x -> in_qbox dims y ->
    StronglySorted lt xpos -> StronglySorted lt ypos -> length xpos = length ypos ->
    Forall (fun i => (i < length dims)%nat) xpos -> Forall (fun i => (i < length dims)%nat) ypos ->
    exists a b rx ry, cut_and_paste dims xpos ypos xi yi x y = Some (a, b) /\ shares dims x rx /\ shares dims y ry /\
      shares dims a (firstn xi (left_over 0 rx xpos) ++ genes_at ry ypos ++ skipn xi (left_over 0 rx xpos)) /\
      shares dims b (firstn yi (left_over 0 ry ypos) ++ genes_at rx xpos ++ skipn yi (left_over 0 ry ypos)).
Proof.
  intros dims xpos ypos xi yi x y Hv Bx By Sx Sy Lp Fx Fy.
  destruct (cut_and_paste_ok dims xpos ypos xi yi x y Hv Bx By Sx Sy Lp Fx Fy) as (a & b & E & La & Lb & Ba & Bb).
  assert (Lx : length x = length dims) by (now apply box_length).
  assert (Ly : length y = length dims) by (now apply box_length).
  pose proof E as E'. unfold cut_and_paste in E'.
  destruct (prepare_transposon dims x xpos) as [(rx, tx)|] eqn:Px; [|discriminate].
  destruct (prepare_transposon dims y ypos) as [(ry, ty)|] eqn:Py; [|discriminate].
  destruct (prepare_genes _ _ _ _ _ Lx Px) as (Hx & ->). destruct (prepare_genes _ _ _ _ _ Ly Py) as (Hy & ->).
  destruct (shares_length _ _ _ Hx) as (_ & Rx). destruct (shares_length _ _ _ Hy) as (_ & Ry).
  destruct (multi_delete_genes rx xpos Sx) as (Dx & PX); [now rewrite Rx|]. destruct (multi_delete_genes ry ypos Sy) as (Dy & PY); [now rewrite Ry|].
  rewrite Dx, Dy in E'. destruct (decode_ratio dims (firstn xi _ ++ _)) as [a'|] eqn:Ea; [|discriminate].
  destruct (decode_ratio dims (firstn yi _ ++ _)) as [b'|] eqn:Eb; [|discriminate]. injection E' as -> ->.
  apply Permutation_length in PX, PY. rewrite app_length, genes_at_length in PX, PY.
  exists a, b, rx, ry. split; [exact E|]. split; [exact Hx|]. split; [exact Hy|]. split; apply decode_shares; try assumption.
  - rewrite !app_length, genes_at_length. pose proof (f_equal (@length Q) (firstn_skipn xi (left_over 0 rx xpos))) as L. rewrite app_length in L. lia.
  - rewrite !app_length, genes_at_length. pose proof (f_equal (@length Q) (firstn_skipn yi (left_over 0 ry ypos))) as L. rewrite app_length in L. lia.
Qed.
Print Assumptions C168_cut_and_paste.

(** Nothing is lost or doubled: together the children have the genes of the parents. *)
Corollary C168_cut_and_paste_conserves :
  forall (dims : list (Q * Q)) (xpos ypos : list nat) (xi yi : nat) (x y : list Q),
    Forall (fun p => fst p < snd p) dims -> in_qbox dims x -> in_qbox dims y ->
    StronglySorted lt xpos -> StronglySorted lt ypos -> length xpos = length ypos ->
    Forall (fun i => (i < length dims)%nat) xpos -> Forall (fun i => (i < length dims)%nat) ypos ->
    exists a b rx ry ra rb, cut_and_paste dims xpos ypos xi yi x y = Some (a, b) /\
      shares dims x rx /\ shares dims y ry /\ shares dims a ra /\ shares dims b rb /\ Permutation (ra ++ rb) (rx ++ ry).
Proof.
  intros dims xpos ypos xi yi x y Hv Bx By Sx Sy Lp Fx Fy.
  destruct (C168_cut_and_paste dims xpos ypos xi yi x y Hv Bx By Sx Sy Lp Fx Fy) as (a & b & rx & ry & E & Hx & Hy & Ha & Hb).
  destruct (shares_length _ _ _ Hx) as (_ & Rx). destruct (shares_length _ _ _ Hy) as (_ & Ry).
  destruct (multi_delete_genes rx xpos Sx) as (_ & PX); [now rewrite Rx|]. destruct (multi_delete_genes ry ypos Sy) as (_ & PY); [now rewrite Ry|].
  exists a, b, rx, ry. eexists _, _. split; [exact E|]. split; [exact Hx|]. split; [exact Hy|]. split; [exact Ha|]. split; [exact Hb|].
  assert (M : forall i (l t : list Q), Permutation (firstn i l ++ t ++ skipn i l) (t ++ l)).
  { intros i l t. rewrite app_assoc. eapply Permutation_trans; [apply Permutation_app_tail, Permutation_app_comm|]. rewrite <- app_assoc, firstn_skipn. apply Permutation_refl. }
  eapply Permutation_trans; [apply Permutation_app; apply M|]. eapply Permutation_trans; [|apply Permutation_app; [exact PX | exact PY]].
  set (tx := genes_at rx xpos). set (ty := genes_at ry ypos). set (kx := left_over 0 rx xpos). set (ky := left_over 0 ry ypos).
  rewrite <- !app_assoc.
  eapply Permutation_trans; [apply Permutation_app_head, Permutation_app_swap_app|].
  eapply Permutation_trans; [apply Permutation_app_swap_app|]. apply Permutation_app_head, Permutation_app_swap_app.
Qed.
Print Assumptions C168_cut_and_paste_conserves.

Lemma set_nth_split (t : Q) : forall l i, (i < length l)%nat -> set_nth i t l = firstn i l ++ t :: skipn (S i) l.
Proof.
  induction l as [|a l IH]; intros [|i] H; cbn [length] in H; try lia; cbn [set_nth firstn skipn app]; [reflexivity|].
  f_equal. rewrite IH by lia. reflexivity.
Qed.
Lemma skipn_twice {A} : forall n m (l : list A), skipn m (skipn n l) = skipn (n + m) l.
Proof. induction n as [|n IH]; intros m l; [reflexivity|]. destruct l; cbn [skipn Nat.add]; [apply skipn_nil | apply IH]. Qed.
Lemma paste_overwritten : forall ts x i, (i < length x)%nat -> paste x ts i = overwritten x i ts.
Proof.
  induction ts as [|t ts IH]; intros x i H; cbn [paste]; unfold overwritten.
  - rewrite firstn_nil. cbn [app length]. rewrite Nat.add_0_r. symmetry. apply firstn_skipn.
  - rewrite (set_nth_split t x i H). set (x' := firstn i x ++ t :: skipn (S i) x).
    assert (Li : length (firstn i x) = i) by (rewrite firstn_length; lia).
    assert (Lx : length x' = length x) by (unfold x'; rewrite app_length, Li; cbn [length]; rewrite skipn_length; lia).
    destruct (length x <=? S i)%nat eqn:E.
    + apply Nat.leb_le in E. unfold x'. replace (length x - i)%nat with 1%nat by lia. cbn [firstn length]. rewrite !skipn_all2 by lia. reflexivity.
    + apply Nat.leb_gt in E. rewrite IH by lia. unfold overwritten. rewrite Lx.
      assert (F : firstn (S i) x' = firstn i x ++ [t]).
      { unfold x'. rewrite firstn_app, Li. replace (S i - i)%nat with 1%nat by lia. rewrite firstn_all2 by lia. reflexivity. }
      assert (K : skipn (S i + length ts) x' = skipn (i + length (t :: ts)) x).
      { unfold x'. rewrite skipn_app, Li, skipn_all2 by lia. replace (S i + length ts - i)%nat with (S (length ts)) by lia. cbn [app length].
        change (skipn (S (length ts)) (t :: skipn (S i) x)) with (skipn (length ts) (skipn (S i) x)).
        rewrite skipn_twice. f_equal. lia. }
      rewrite F, K. replace (length x - i)%nat with (S (length x - S i)) by lia. cbn [firstn]. rewrite <- !app_assoc. reflexivity.
Qed.
Lemma overwritten_length x i ts : (i < length x)%nat -> length (overwritten x i ts) = length x.
Proof. intros H. unfold overwritten. rewrite !app_length, !firstn_length, skipn_length. lia. Qed.

(** Copy and paste: each child is a copy of one parent in which the genes of the other replace those from the drawn place
    on, as far as there is room. *)
Theorem C168_copy_and_paste :
  forall (dims : list (Q * Q)) (xpos ypos : list nat) (xi yi : nat) (x y : list Q),
    Forall (fun p => fst p < snd p) dims -> in_qbox dims x -> in_qbox dims y ->
    Forall (fun i => (i < length dims)%nat) xpos -> Forall (fun i => (i < length dims)%nat) ypos ->
    (xi < length dims)%nat -> (yi < length dims)%nat ->
    exists a b rx ry, copy_and_paste dims xpos ypos xi yi x y = Some (a, b) /\ shares dims x rx /\ shares dims y ry /\
      shares dims a (overwritten rx xi (genes_at ry ypos)) /\ shares dims b (overwritten ry yi (genes_at rx xpos)).
Proof.
  intros dims xpos ypos xi yi x y Hv Bx By Fx Fy Hxi Hyi.
  destruct (copy_and_paste_ok dims xpos ypos xi yi x y Hv Bx By Fx Fy) as (a & b & E & _).
  pose proof (box_length _ _ Bx) as Lx. pose proof (box_length _ _ By) as Ly.
  pose proof E as E'. unfold copy_and_paste in E'.
  destruct (prepare_transposon dims x xpos) as [(rx, tx)|] eqn:Px; [|discriminate].
  destruct (prepare_transposon dims y ypos) as [(ry, ty)|] eqn:Py; [|discriminate].
  destruct (prepare_genes _ _ _ _ _ Lx Px) as (Hx & ->). destruct (prepare_genes _ _ _ _ _ Ly Py) as (Hy & ->).
  destruct (shares_length _ _ _ Hx) as (_ & Rx). destruct (shares_length _ _ _ Hy) as (_ & Ry).
  rewrite !paste_overwritten in E' by lia.
  destruct (decode_ratio dims (overwritten rx _ _)) as [a'|] eqn:Ea; [|discriminate].
  destruct (decode_ratio dims (overwritten ry _ _)) as [b'|] eqn:Eb; [|discriminate]. injection E' as -> ->.
  exists a, b, rx, ry. split; [exact E|]. split; [exact Hx|]. split; [exact Hy|].
  split; apply decode_shares; try assumption; rewrite overwritten_length; lia.
Qed.
Print Assumptions C168_copy_and_paste.

(** Four genes, two of them jump; the hypotheses are met. *)
Example C168_example :
  let dims := [(1, 5); (0, 2); (1, 5); (1, 5)] in
  let x := [3; 2; 1; 5] in let y := [4; 1; 2; 3] in
  Forall (fun p => fst p < snd p) dims /\ in_qbox dims x /\ in_qbox dims y /\
  StronglySorted lt [0; 2]%nat /\ StronglySorted lt [1; 3]%nat /\
  shares dims x [1 # 2; 1; 0; 1] /\ shares dims y [3 # 4; 1 # 2; 1 # 4; 1 # 2] /\
  left_over 0 [1 # 2; 1; 0; 1] [0; 2]%nat = [1; 1] /\ genes_at [3 # 4; 1 # 2; 1 # 4; 1 # 2] [1; 3]%nat = [1 # 2; 1 # 2] /\
  overwritten [1 # 2; 1; 0; 1] 3 [1 # 2; 1 # 2] = [1 # 2; 1; 0; 1 # 2].
Proof.
  cbv zeta. split; [repeat constructor|]. split; [repeat constructor; discriminate|]. split; [repeat constructor; discriminate|].
  split; [repeat constructor|]. split; [repeat constructor|]. repeat split; reflexivity.
Qed.
