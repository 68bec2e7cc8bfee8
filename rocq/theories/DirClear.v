Require Import String Ascii List Arith NArith ZArith Lia Bool.
From Verif Require Import Base PyStr PyStrFacts IdModel IdProofs FsModel FsSpec FsProofs FsExtract DirModel DirSpec DirProofs.
Import ListNotations.
Open Scope string_scope.
#[local] Arguments apply_ws : simpl never.

(** * Numbers in names *)
Lemma digit_not_space c : is_digit c = true -> is_space c = false.
Proof. destruct c as [[] [] [] [] [] [] [] []]; vm_compute; congruence. Qed.

Lemma digits_chars : forall s a v, digits_value a s = Some v ->
  lstrip s = s /\ rstrip s = s /\ (s <> "" -> forall b, int_digits (Z.of_N a) b s = Some (Z.of_N v)) /\
  int_digits (Z.of_N a) true s = Some (Z.of_N v) /\ lacks "."%char s /\
  match s with String c _ => is_digit c = true | EmptyString => True end.
Proof.
  induction s as [|c s IH]; intros a v H; cbn [digits_value lstrip rstrip int_digits lacks] in *.
  - inversion H; subst. repeat split; auto; congruence.
  - destruct (is_digit c) eqn:D; [|discriminate]. destruct (IH _ _ H) as (A & B & _ & E & F & G).
    rewrite (digit_not_space c D). rewrite B.
    replace (10 * Z.of_N a + Z.of_N (digit_value c))%Z with (Z.of_N (10 * a + digit_value c)) by lia. rewrite E.
    split; [reflexivity|]. split; [destruct s; reflexivity|]. split; [auto|]. split; [reflexivity|]. split; [|reflexivity].
    split; [|exact F]. intros ->. discriminate.
Qed.

Lemma py_int_of_digits : forall s v, int_of_str s = Some v -> py_int s = Some (Z.of_N v).
Proof.
  intros s v H. destruct s as [|c s]; [discriminate|]. unfold int_of_str in H.
  destruct (digits_chars _ _ _ H) as (A & B & C & _ & _ & D). unfold py_int. rewrite A, B.
  rewrite <- (C ltac:(discriminate) false). change (Z.of_N 0) with 0%Z.
  destruct c as [[] [] [] [] [] [] [] []]; try reflexivity; vm_compute in D; discriminate.
Qed.

Lemma budget_of_number : forall k t, budget_of (str_of_N k ++ "." ++ t) = Some (Z.of_N k).
Proof.
  intros k t. unfold budget_of. change ("." ++ t) with (String "."%char t). rewrite (split_cons "."%char (str_of_N k) t).
  - cbn [hd]. apply py_int_of_digits, int_str.
  - pose proof (int_str k) as H. unfold int_of_str in H. destruct (str_of_N k) as [|c s]; [exact I|].
    exact (proj1 (proj2 (proj2 (proj2 (proj2 (digits_chars _ _ _ H)))))).
Qed.

(** * Clearing *)
Lemma clear_cases : forall s d f,
  (fst (clear_budget s d f) = [] /\
   (budget_of f = None -> snd (clear_budget s d f) <> None) /\
   (forall z, budget_of f = Some z -> (z <= 4500)%Z -> snd (clear_budget s d f) = None) /\
   (is_file s (d ++ [f])%list = true -> forall z, budget_of f = Some z -> (z <= 4500)%Z)) \/
  exists z b, budget_of f = Some z /\ (4500 < z)%Z /\ lookup s (d ++ [f])%list = Some (File b) /\
    clear_budget s d f = ([Remove (d ++ [f])%list], None).
Proof.
  intros s d f. unfold clear_budget. destruct (budget_of f) as [z|] eqn:B.
  - destruct (Z.ltb_spec 4500 z) as [L|L].
    + unfold is_file. destruct (lookup s (d ++ [f])%list) as [[|b]|] eqn:F.
      2: { right. exists z, b. auto. }
      all: left; cbn; repeat split; try discriminate; intros z' Q; inversion Q; subst; lia.
    + left. cbn. repeat split; try discriminate. intros _ z' Q. inversion Q; subst. exact L.
  - left. cbn. repeat split; try discriminate.
Qed.

Lemma removal : forall s p, apply_ws s [Remove p] = remove s p.
Proof. reflexivity. Qed.

Lemma clear_touch : forall s d n q, (forall m, q <> (d ++ [m])%list) ->
  lookup (apply_ws s (fst (clear_budget s d n))) q = lookup s q.
Proof.
  intros s d n q H. destruct (clear_cases s d n) as [[-> _]|(z & b & _ & _ & L & ->)]; [reflexivity|].
  cbn [fst]. rewrite removal. apply lookup_remove_ne, H.
Qed.

Lemma clear_dirs : forall s d n q, lookup (apply_ws s (fst (clear_budget s d n))) q = Some Dir <-> lookup s q = Some Dir.
Proof.
  intros s d n q. destruct (clear_cases s d n) as [[-> _]|(z & b & _ & _ & L & ->)]; [tauto|].
  cbn [fst]. rewrite removal, lookup_remove. destruct (path_eqb_spec (d ++ [n])%list q) as [<-|]; [|tauto].
  rewrite L. split; discriminate.
Qed.

Notation crun := (each (at_file clear_budget)).

Lemma clear_prefix : forall W s k q, let s' := apply_ws s (firstn k (fst (crun s W))) in
  lookup s' q = lookup s q \/
  lookup s' q = None /\ exists d n z b, q = (d ++ [n])%list /\ In (d, n) W /\ lookup s q = Some (File b) /\ budget_of n = Some z /\ (4500 < z)%Z.
Proof.
  induction W as [|[d0 f0] W IH]; intros s k q; cbn [each].
  - cbn [fst]. rewrite firstn_nil. now left.
  - change (at_file clear_budget s (d0, f0)) with (clear_budget s d0 f0).
    destruct (clear_cases s d0 f0) as [[E _]|(z & b & B & Z & L & C)].
    + destruct (clear_budget s d0 f0) as [os [e|]]; cbn [fst] in E; subst os; [cbn [fst]; rewrite firstn_nil; now left|].
      change (apply_ws s []) with s. specialize (IH s k q). destruct (crun s W) as [os e]. cbn [fst app] in *.
      destruct IH as [IH|(IH & d & n & z & b & P & I & R)]; [now left|right]. split; [exact IH|]. exists d, n, z, b.
      split; [exact P|]. split; [now right|exact R].
    + rewrite C. destruct k as [|k]; [now left|]. specialize (IH (apply_ws s [Remove (d0 ++ [f0])%list]) k q).
      destruct (crun (apply_ws s [Remove (d0 ++ [f0])%list]) W) as [os e]. cbn [fst app firstn] in *. cbv zeta.
      change (apply_ws s (Remove (d0 ++ [f0])%list :: firstn k os)) with (apply_ws (remove s (d0 ++ [f0])%list) (firstn k os)).
      rewrite removal in IH. rewrite lookup_remove in IH. destruct (path_eqb_spec (d0 ++ [f0])%list q) as [Q|Q].
      * right. subst q. split; [destruct IH as [IH|[IH _]]; exact IH|]. exists d0, f0, z, b.
        split; [reflexivity|]. split; [now left|auto].
      * destruct IH as [IH|(IH & d & n & z' & b' & P & I & R)]; [now left|right]. split; [exact IH|].
        exists d, n, z', b'. split; [exact P|]. split; [now right|exact R].
Qed.

Lemma clear_normal : forall W s, NoDup W ->
  (forall d f, In (d, f) W -> is_file s (d ++ [f])%list = true) ->
  (snd (crun s W) = None <-> forall d f, In (d, f) W -> budget_of f <> None) /\
  (snd (crun s W) = None -> forall d f z, In (d, f) W -> budget_of f = Some z -> (4500 < z)%Z ->
     lookup (apply_ws s (fst (crun s W))) (d ++ [f])%list = None).
Proof.
  induction W as [|[d0 f0] W IH]; intros s Hn Hf; cbn [each].
  - cbn. split; [split; [intros _ d f []|reflexivity]|intros _ d f z []].
  - inversion Hn as [|? ? Hn0 HnW]; subst.
    change (at_file clear_budget s (d0, f0)) with (clear_budget s d0 f0).
    destruct (clear_cases s d0 f0) as [(E & E1 & E2 & E3)|(z & b & B & Z & L & C)].
    + destruct (clear_budget s d0 f0) as [os [e|]]; cbn [fst snd] in *; subst os.
      * split; [|discriminate]. split; [discriminate|]. intro H. exfalso. specialize (H d0 f0 (or_introl eq_refl)).
        destruct (budget_of f0) as [z|]; [|congruence]. specialize (E2 z eq_refl (E3 (Hf _ _ (or_introl eq_refl)) z eq_refl)). discriminate.
      * change (apply_ws s []) with s. destruct (IH s HnW (fun d f I => Hf d f (or_intror I))) as [I1 I2].
        destruct (crun s W) as [os e]. cbn [fst snd app] in *. split.
        -- rewrite I1. split; [|intros H d f Q; apply (H d f); now right]. intros H d f [Q|Q]; [|now apply (H d)]. inversion Q; subst.
           intro K. now apply (E1 K).
        -- intros H d f z [Q|Q] K1 K2; [|now apply (I2 H d f z)]. inversion Q; subst.
           specialize (E3 (Hf _ _ (or_introl eq_refl)) z K1). lia.
    + rewrite C. rewrite removal. set (s1 := remove s (d0 ++ [f0])%list).
      assert (M : forall d f, In (d, f) W -> (d ++ [f])%list <> (d0 ++ [f0])%list).
      { intros d f I Q. apply app_inj_tail in Q. destruct Q as [-> ->]. contradiction. }
      destruct (IH s1 HnW) as [I1 I2].
      { intros d f I. unfold is_file, s1. rewrite lookup_remove_ne by now apply M. apply (Hf d f (or_intror I)). }
      pose proof (clear_prefix W s1) as P. destruct (crun s1 W) as [os e]. cbn [fst snd] in *. split.
      * rewrite I1. split; [|intros H d f Q; apply (H d f); now right]. intros H d f [Q|Q]; [inversion Q; subst; congruence|now apply (H d)].
      * intros H d f z' [Q|Q] K1 K2.
        -- inversion Q; subst. change (apply_ws s ([Remove (d ++ [f])%list] ++ os)) with (apply_ws s1 os).
           specialize (P (length os) (d ++ [f])%list). cbv zeta in P. rewrite firstn_all in P.
           unfold s1 in P at 2. rewrite lookup_remove_eq in P. destruct P as [P|[P _]]; exact P.
        -- change (apply_ws s ([Remove (d0 ++ [f0])%list] ++ os)) with (apply_ws s1 os). now apply (I2 H d f z').
Qed.

Section Tool.
  Variable listing : fs -> path -> list string.
  Hypothesis Hl : some_order listing.

  Lemma clear_flat : forall s root, exists W, clear listing s root = crun s W /\ NoDup W /\
    (forall w, In w W -> reached s root w) /\
    (lookup s root = Some Dir -> forall w, reached s root w -> In w W).
  Proof.
    intros s root. destruct (lookup s root) as [[|b]|] eqn:L.
    - destruct (walk_flat listing Hl clear_budget clear_touch clear_dirs (depth s) s root L) as (W & A & B & C).
      { intros q Hq. pose proof (depth_bound s q). rewrite Hq in *. assert (length q < depth s)%nat by (apply H; discriminate). lia. }
      exists W. split; [exact A|]. split; [exact B|]. split; [apply C|]. intros _ w. apply C.
    - exists []. unfold clear, depth. cbn [walk]. rewrite L. cbn. split; [reflexivity|]. split; [constructor|].
      split; [intros w []|discriminate].
    - exists []. unfold clear, depth. cbn [walk]. rewrite L. cbn. split; [reflexivity|]. split; [constructor|].
      split; [intros w []|discriminate].
  Qed.

  Lemma clear_safe : forall s root k q, let s' := killed_after s (clear listing s root) k in
    lookup s' q = lookup s q \/
    lookup s' q = None /\ exists d n z b, q = (root ++ d ++ [n])%list /\ lookup s q = Some (File b) /\ budget_of n = Some z /\ (4500 < z)%Z.
  Proof.
    intros s root k q. unfold killed_after. destruct (clear_flat s root) as (W & -> & _ & I & _).
    destruct (clear_prefix W s k q) as [H|(H & d & n & z & b & -> & J & L & B & Z)]; [now left|right].
    split; [exact H|]. destruct (I _ J) as (r & R & _). cbn in R. subst d. exists r, n, z, b. rewrite <- app_assoc in *. auto.
  Qed.

  Lemma tree_reached : forall s root d n b, root <> [] -> tree s -> lookup s (root ++ d ++ [n])%list = Some (File b) ->
    lookup s root = Some Dir /\ reached s root ((root ++ d)%list, n).
  Proof.
    intros s root d n b Hr T L.
    assert (P : forall d1 d2, d = (d1 ++ d2)%list -> lookup s (root ++ d1)%list = Some Dir).
    { intros d1 d2 ->. apply (tr_parents s T _ (root ++ (d1 ++ d2) ++ [n])%list (File b)); [| |exact L].
      - apply prefixes_in. split; [destruct root; [congruence|discriminate]|]. exists (d2 ++ [n])%list. now rewrite <- !app_assoc.
      - intro E. rewrite <- !app_assoc in E. rewrite app_assoc in E. rewrite <- (app_nil_r (root ++ d1)) in E at 1.
        apply app_inv_head in E. destruct d2; discriminate. }
    split; [rewrite <- (app_nil_r root); now apply (P [] d)|]. exists d. cbn. split; [reflexivity|].
    split; [unfold is_file; now rewrite <- app_assoc, L|exact P].
  Qed.

  Lemma clear_ok : forall s root, root <> [] -> tree s ->
    (snd (clear listing s root) = None <-> forall d n, file_below s root d n -> budget_of n <> None) /\
    (snd (clear listing s root) = None -> forall d n z, file_below s root d n -> budget_of n = Some z -> (4500 < z)%Z ->
      lookup (final s (clear listing s root)) (root ++ d ++ [n])%list = None).
  Proof.
    intros s root Hr T. destruct (clear_flat s root) as (W & -> & N & I & I').
    assert (F : forall d f, In (d, f) W -> is_file s (d ++ [f])%list = true).
    { intros d f H. destruct (I _ H) as (r & _ & F & _). exact F. }
    assert (J : forall d n, file_below s root d n -> In ((root ++ d)%list, n) W).
    { intros d n (b & L). destruct (tree_reached s root d n b Hr T L) as [A B]. now apply I'. }
    destruct (clear_normal W s N F) as [A B]. split.
    - rewrite A. split; intros H d f K.
      + now apply (H (root ++ d)%list), J.
      + destruct (I _ K) as (r & R & Fi & _). cbn in R, Fi. subst d. apply (H r f). unfold file_below.
        rewrite app_assoc. unfold is_file in Fi. destruct (lookup s ((root ++ r) ++ [f])%list) as [[|b]|]; try discriminate. eauto.
    - intros H d n z K1 K2 K3. unfold final. rewrite app_assoc. apply (B H _ _ z); auto.
  Qed.
End Tool.
