(** Proofs about files. *)
Require Import String Ascii List Arith NArith Lia Bool Permutation Sorted.
From Verif Require Import PyStr PyStrFacts IdModel IdSpec IdProofs FsModel FsSpec.
Import ListNotations.
Open Scope string_scope.

(** * The map *)
Lemma path_eqb_spec : forall p q, reflect (p = q) (path_eqb p q).
Proof.
  intros p q. unfold path_eqb. destruct (list_eq_dec string_dec p q); constructor; auto.
Qed.

Lemma lookup_set : forall s p n q,
  lookup (set s p n) q = if path_eqb p q then Some n else lookup s q.
Proof.
  induction s as [|[x m] s IH]; intros p n q; cbn.
  - reflexivity.
  - destruct (path_eqb_spec x p) as [E|E]; cbn.
    + subst. destruct (path_eqb_spec p q); reflexivity.
    + rewrite IH. destruct (path_eqb_spec x q), (path_eqb_spec p q); try reflexivity.
      congruence.
Qed.

Lemma lookup_set_eq : forall s p n, lookup (set s p n) p = Some n.
Proof. intros. rewrite lookup_set. destruct (path_eqb_spec p p); congruence. Qed.

Lemma lookup_set_ne : forall s p n q, p <> q -> lookup (set s p n) q = lookup s q.
Proof. intros. rewrite lookup_set. destruct (path_eqb_spec p q); congruence. Qed.

Lemma lookup_in : forall s p n, lookup s p = Some n -> In (p, n) s.
Proof.
  induction s as [|[q m] s IH]; intros p n H; cbn in H; [discriminate|].
  destruct (path_eqb_spec q p); [left; congruence|right; auto].
Qed.

Lemma in_lookup : forall s p, In p (map fst s) -> lookup s p <> None.
Proof.
  induction s as [|[q m] s IH]; intros p H; cbn in *; [contradiction|].
  destruct (path_eqb_spec q p); [discriminate|]. destruct H; [congruence|auto].
Qed.

Lemma keys_set : forall s p n, NoDup (map fst s) -> NoDup (map fst (set s p n)) /\
  forall q, In q (map fst (set s p n)) <-> q = p \/ In q (map fst s).
Proof.
  induction s as [|[q m] s IH]; intros p n H; cbn in *.
  - split; [repeat constructor; auto|]. intuition.
  - inversion H as [|x l Hn Hd]; subst. destruct (path_eqb_spec q p) as [E|E]; cbn.
    + subst. split; [now constructor|]. intuition.
    + destruct (IH p n Hd) as [I1 I2]. split.
      * constructor; [|exact I1]. rewrite I2. intros [?|?]; [congruence|contradiction].
      * intro r. rewrite I2. intuition.
Qed.

(** * Paths *)
Lemma prefixes_in : forall p q, In q (prefixes p) <-> q <> [] /\ exists t, p = (q ++ t)%list.
Proof.
  induction p as [|x p IH]; intro q; cbn.
  - split; [contradiction|]. intros [H (t & E)]. symmetry in E. apply app_eq_nil in E. tauto.
  - rewrite in_map_iff. split.
    + intros [H|(y & H & Hy)]; subst.
      * split; [discriminate|]. now exists p.
      * apply IH in Hy. destruct Hy as [_ (t & ->)]. split; [discriminate|]. now exists t.
    + intros [H (t & E)]. destruct q as [|y q]; [congruence|]. inversion E; subst.
      destruct q as [|z q]; [now left|]. right. exists (z :: q).
      split; [reflexivity|]. apply IH. split; [discriminate|]. now exists t.
Qed.

Lemma prefixes_self : forall p, p <> [] -> In p (prefixes p).
Proof. intros p H. apply prefixes_in. split; [exact H|]. exists []. now rewrite app_nil_r. Qed.

Lemma prefixes_nodup : forall p, NoDup (prefixes p).
Proof.
  induction p as [|x p IH]; cbn; [constructor|]. constructor.
  - rewrite in_map_iff. intros (y & E & Hy). inversion E; subst.
    apply prefixes_in in Hy. tauto.
  - apply FinFun.Injective_map_NoDup; [|exact IH]. intros a b E. now inversion E.
Qed.

Lemma result_path_inj : forall d n d' n', result_path d n = result_path d' n' ->
  d = d' /\ n = n'.
Proof.
  intros d n d' n' H. unfold result_path in H. apply app_inj_tail in H.
  destruct H as [H1 H2]. split; [exact H1|]. now apply app_inj_r in H2.
Qed.

Lemma loc_path_inj : forall root l l', loc_path root l = loc_path root l' -> l = l'.
Proof.
  intros root [p a i n] [p' a' i' n'] H. unfold loc_path, loc_dir, run_path in H.
  apply result_path_inj in H. cbn [l_problem l_algo l_id l_name] in H.
  destruct H as [H ->]. inversion H; subst. reflexivity.
Qed.

Lemma removelast_result : forall d n, removelast (result_path d n) = d.
Proof. intros. unfold result_path. apply removelast_last. Qed.

Lemma loc_path_not_prefix : forall root l q p a i,
  In q (prefixes (run_path root p a i)) -> q <> loc_path root l.
Proof.
  intros root l q p a i H E. apply prefixes_in in H. destruct H as [_ (t & Ht)].
  apply (f_equal (@List.length string)) in Ht. subst q.
  unfold loc_path, result_path, loc_dir, run_path in Ht.
  rewrite !app_length in Ht. cbn in Ht. lia.
Qed.

(** * Writes *)
Lemma apply_all_app : forall a b s, apply_all s (a ++ b) = apply_all (apply_all s a) b.
Proof. intros. unfold apply_all. apply fold_left_app. Qed.

Lemma lookup_mkdirs : forall ps s q,
  lookup (apply_all s (map Mkdir ps)) q =
  if existsb (fun p => path_eqb p q) ps then Some Dir else lookup s q.
Proof.
  induction ps as [|p ps IH]; intros s q; cbn; [reflexivity|].
  unfold apply_all in IH. rewrite IH, lookup_set.
  destruct (path_eqb p q); cbn; [|reflexivity]. now destruct (existsb _ ps).
Qed.

Lemma lookup_mkdirs_some : forall ps s q n, lookup s q = Some n ->
  (forall p, In p ps -> lookup s p = None) ->
  lookup (apply_all s (map Mkdir ps)) q = Some n.
Proof.
  intros ps s q n H Hm. rewrite lookup_mkdirs.
  destruct (existsb (fun p => path_eqb p q) ps) eqn:E; [|exact H].
  apply existsb_exists in E. destruct E as (p & Hp & Ep).
  destruct (path_eqb_spec p q) as [E|E]; [|discriminate]. subst.
  rewrite Hm in H by assumption. discriminate.
Qed.

Definition take (m : nat) (b : string) : string := substring 0 m b.

Lemma take_chars : forall b m, take m b = String.concat "" (map (fun c => String c "")
  (firstn m (chars b))).
Proof.
  unfold take. induction b as [|c b IH]; intros [|m]; cbn; try reflexivity.
  rewrite IH. destruct (firstn m (chars b)); cbn; reflexivity.
Qed.

Lemma chars_length : forall b, List.length (chars b) = String.length b.
Proof. induction b; cbn; congruence. Qed.

Lemma take_all : forall b m, (String.length b <= m)%nat -> take m b = b.
Proof.
  unfold take. induction b as [|c b IH]; intros [|m] H; cbn in *; try reflexivity; try lia.
  rewrite IH by lia. reflexivity.
Qed.

Fixpoint string_of (l : list ascii) : string :=
  match l with [] => "" | c :: l' => String c (string_of l') end.

Lemma take_string_of : forall b m, take m b = string_of (firstn m (chars b)).
Proof.
  unfold take. induction b as [|c b IH]; intros [|m]; cbn; try reflexivity. now rewrite IH.
Qed.

Lemma appends : forall cs s p b, lookup s p = Some (File b) ->
  (lookup (apply_all s (map (Append p) cs)) p = Some (File (b ++ string_of cs))) /\
  forall q, q <> p -> lookup (apply_all s (map (Append p) cs)) q = lookup s q.
Proof.
  induction cs as [|c cs IH]; intros s p b H; cbn.
  - rewrite app_nil_r_s. auto.
  - rewrite H.
    specialize (IH (set s p (File (b ++ String c ""))) p (b ++ String c "")
      (lookup_set_eq _ _ _)). unfold apply_all in IH. destruct IH as [I1 I2].
    rewrite I1. rewrite app_assoc_s. split; [reflexivity|].
    intros q Hq. rewrite I2 by assumption. now apply lookup_set_ne; auto.
Qed.

Lemma written_at : forall m s p b,
  lookup (apply_all s (firstn (S m) (write_ops p b))) p = Some (File (take m b)) /\
  forall q, q <> p -> lookup (apply_all s (firstn (S m) (write_ops p b))) q = lookup s q.
Proof.
  intros m s p b. unfold write_ops. cbn [firstn].
  rewrite firstn_map. unfold apply_all. cbn [fold_left apply].
  pose proof (appends (firstn m (chars b)) (set s p (File "")) p "" (lookup_set_eq _ _ _))
    as [A1 A2].
  unfold apply_all in A1, A2. rewrite A1, take_string_of. split; [reflexivity|].
  intros q Hq. rewrite A2 by assumption. now apply lookup_set_ne; auto.
Qed.

Lemma written_all : forall s p b,
  lookup (apply_all s (write_ops p b)) p = Some (File b) /\
  forall q, q <> p -> lookup (apply_all s (write_ops p b)) q = lookup s q.
Proof.
  intros s p b. pose proof (written_at (String.length b) s p b) as H.
  rewrite firstn_all2 in H.
  2: { unfold write_ops. cbn. rewrite map_length, chars_length. lia. }
  now rewrite take_all in H by lia.
Qed.

(** * Stores *)
Lemma filter_missing : forall s ps p, In p (filter (is_missing s) ps) -> lookup s p = None.
Proof.
  intros s ps p H. apply filter_In in H. destruct H as [_ H]. unfold is_missing in H.
  destruct (lookup s p); [discriminate|reflexivity].
Qed.

(** The state after any number of steps of a store. *)
Lemma store_prefix : forall s dir name b k,
  let ops := store_ops s dir name b in
  let s' := apply_all s (firstn k ops) in
  let target := result_path dir name in
  (forall q n, q <> target -> lookup s q = Some n -> lookup s' q = Some n) /\
  (forall q, q <> target -> lookup s q = None ->
     lookup s' q = None \/ (lookup s' q = Some Dir /\ In q (prefixes dir))).
Proof.
  intros s dir name b k ops s' target. unfold ops, store_ops in s'. fold target in s'.
  assert (N : forall ps j, (forall p, In p ps -> In p (filter (is_missing s) (prefixes dir))) ->
    s' = apply_all s (firstn j (map Mkdir ps)) ->
    (forall q n, q <> target -> lookup s q = Some n -> lookup s' q = Some n) /\
    (forall q, q <> target -> lookup s q = None ->
     lookup s' q = None \/ (lookup s' q = Some Dir /\ In q (prefixes dir)))).
  { intros ps j Hps ->. rewrite firstn_map.
    assert (Hj : forall p, In p (firstn j ps) -> In p (filter (is_missing s) (prefixes dir))).
    { intros p Hp. apply Hps. rewrite <- (firstn_skipn j ps). apply in_or_app. now left. }
    split.
    - intros q n _ H. apply lookup_mkdirs_some; [exact H|].
      intros p Hp. eapply filter_missing. apply Hj. exact Hp.
    - intros q _ H. rewrite lookup_mkdirs.
      destruct (existsb (fun p => path_eqb p q) (firstn j ps)) eqn:E; [|now left].
      right. split; [reflexivity|]. apply existsb_exists in E. destruct E as (p & Hp & Ep).
      destruct (path_eqb_spec p q) as [->|]; [|discriminate].
      apply Hj in Hp. apply filter_In in Hp. tauto. }
  destruct (existsb (is_file s) (prefixes dir)).
  { apply (N [] 0); [intros p []|]. unfold s'. now rewrite firstn_nil. }
  unfold mkdir_ops in s'. set (ms := filter (is_missing s) (prefixes dir)) in *.
  set (w := match lookup s target with Some Dir => [] | _ => write_ops target b end) in s'.
  destruct (le_lt_dec k (List.length ms)) as [L|L].
  { apply (N ms k); [auto|]. unfold s'. rewrite firstn_app, map_length.
    replace (k - List.length ms)%nat with 0 by lia. cbn. now rewrite app_nil_r. }
  assert (Es : s' = apply_all (apply_all s (map Mkdir ms)) (firstn (k - List.length ms) w)).
  { unfold s'. rewrite firstn_app, map_length, apply_all_app.
    rewrite (firstn_all2 (map Mkdir ms)) by (rewrite map_length; lia). reflexivity. }
  assert (H : forall q, q <> target -> lookup s' q = lookup (apply_all s (map Mkdir ms)) q).
  { intros q Hq. rewrite Es. unfold w. destruct (lookup s target) as [[|c]|].
    - now rewrite firstn_nil.
    - replace (k - List.length ms)%nat with (S (k - List.length ms - 1)) by lia.
      now apply written_at.
    - replace (k - List.length ms)%nat with (S (k - List.length ms - 1)) by lia.
      now apply written_at. }
  split.
  - intros q n Hq Hl. rewrite H by assumption. apply lookup_mkdirs_some; [exact Hl|].
    intros p Hp. eapply filter_missing. exact Hp.
  - intros q Hq Hl. rewrite H by assumption. rewrite lookup_mkdirs.
    destruct (existsb (fun p => path_eqb p q) ms) eqn:E; [|now left].
    right. split; [reflexivity|]. apply existsb_exists in E. destruct E as (p & Hp & Ep).
    destruct (path_eqb_spec p q) as [->|]; [|discriminate].
    unfold ms in Hp. apply filter_In in Hp. tauto.
Qed.

(** The file itself. *)
Lemma store_target : forall s dir name b k,
  store_error s dir name = None -> (forall q, In q (prefixes dir) -> q <> result_path dir name) ->
  let n := List.length (mkdir_ops s dir) in
  lookup (apply_all s (firstn k (store_ops s dir name b))) (result_path dir name) =
  if (k <=? n)%nat then lookup s (result_path dir name)
  else Some (File (take (k - n - 1) b)).
Proof.
  intros s dir name b k He Hne n. unfold store_error in He. unfold store_ops.
  destruct (existsb (is_file s) (prefixes dir)); [discriminate|].
  set (target := result_path dir name) in *. unfold mkdir_ops in *.
  set (ms := filter (is_missing s) (prefixes dir)) in *.
  assert (Hms : forall p, In p ms -> p <> target).
  { intros p Hp. apply Hne. unfold ms in Hp. apply filter_In in Hp. tauto. }
  assert (Hl : forall ps, (forall p, In p ps -> In p ms) ->
    lookup (apply_all s (map Mkdir ps)) target = lookup s target).
  { intros ps Hps. rewrite lookup_mkdirs.
    destruct (existsb (fun p => path_eqb p target) ps) eqn:E; [|reflexivity].
    apply existsb_exists in E. destruct E as (p & Hp & Ep).
    destruct (path_eqb_spec p target) as [E|]; [|discriminate]. subst p.
    exfalso. apply (Hms target); auto. }
  replace (match lookup s target with Some Dir => [] | _ => write_ops target b end)
    with (write_ops target b) by (destruct (lookup s target) as [[|]|]; congruence).
  rewrite firstn_app, apply_all_app. unfold n. rewrite map_length.
  destruct (Nat.leb_spec k (List.length ms)) as [L|L].
  - replace (k - List.length ms)%nat with 0 by lia. cbn [firstn].
    change (apply_all ?x []) with x. rewrite firstn_map. apply Hl.
    intros p Hp. rewrite <- (firstn_skipn k ms). apply in_or_app. now left.
  - replace (k - List.length ms)%nat with (S (k - List.length ms - 1)) by lia.
    replace (S (k - List.length ms - 1) - 1)%nat with (k - List.length ms - 1)%nat by lia.
    apply written_at.
Qed.

Lemma store_ops_length : forall s dir name b, store_error s dir name = None ->
  List.length (store_ops s dir name b) =
  (List.length (mkdir_ops s dir) + S (String.length b))%nat.
Proof.
  intros s dir name b He. unfold store_error in He. unfold store_ops.
  destruct (existsb (is_file s) (prefixes dir)); [discriminate|].
  rewrite app_length. f_equal. destruct (lookup s (result_path dir name)) as [[|]|];
    try discriminate; unfold write_ops; cbn; now rewrite map_length, chars_length.
Qed.
