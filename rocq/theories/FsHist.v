(** Histories of stores. *)
Require Import String Ascii List Arith NArith Lia Bool Permutation Sorted.
From Verif Require Import PyStr PyStrFacts IdModel IdSpec IdProofs FsModel FsSpec FsProofs.
Import ListNotations.
Open Scope string_scope.

Section Hist.
  Variable R : Type.
  Variable pickle : R -> string.
  Variable unpickle : string -> option R.
  Variable root : string.

  Lemma usable_no_error : forall s l, usable root s ->
    store_error s (loc_dir root l) (l_name l) = None.
  Proof.
    intros s l H. unfold store_error.
    destruct (existsb (is_file s) (prefixes (loc_dir root l))) eqn:E.
    - apply existsb_exists in E. destruct E as (q & Hq & Ef). unfold is_file in Ef.
      destruct (lookup s q) as [[|b]|] eqn:Lk; try discriminate.
      exfalso. exact (us_dirs _ _ H _ _ _ _ b Hq Lk).
    - pose proof (us_files _ _ H l) as F. unfold loc_path in F.
      destruct (lookup s (result_path (loc_dir root l) (l_name l))) as [[|b]|]; congruence.
  Qed.

  Lemma read_usable : forall s l, usable root s ->
    read s (loc_path root l) =
    match lookup s (loc_path root l) with
    | Some (File b) => Good b
    | _ => Bad FileNotFound
    end.
  Proof.
    intros s l H. unfold read. unfold loc_path at 1. rewrite removelast_result.
    pose proof (usable_no_error s l H) as E. unfold store_error in E.
    destruct (existsb (is_file s) (prefixes (loc_dir root l))); [discriminate|].
    pose proof (us_files _ _ H l) as F.
    destruct (lookup s (loc_path root l)) as [[|b]|]; congruence.
  Qed.

  Lemma usable_event : forall s (e : event R), usable root s ->
    usable root (run_event R pickle root s e).
  Proof.
    intros s e H. unfold run_event.
    set (dir := loc_dir root (e_loc R e)). set (name := l_name (e_loc R e)).
    set (b := pickle (e_result R e)).
    set (k := steps s dir _ _).
    destruct (store_prefix s dir name b k) as [P1 P2].
    set (s' := apply_all s (firstn k (store_ops s dir name b))) in *.
    assert (T : result_path dir name = loc_path root (e_loc R e)) by reflexivity.
    constructor.
    - intros p a i q c Hq. pose proof (us_dirs _ _ H p a i q) as U.
      assert (Hne : q <> result_path dir name) by (rewrite T; eapply loc_path_not_prefix; eauto).
      destruct (lookup s q) as [n|] eqn:E.
      + rewrite (P1 q n Hne E). intro K. inversion K; subst. exact (U c Hq eq_refl).
      + destruct (P2 q Hne E) as [K|[K _]]; rewrite K; discriminate.
    - intro l. destruct (location_eq_dec (e_loc R e) l) as [E|E].
      + subst l. rewrite <- T. unfold s'. rewrite store_target.
        * destruct (Nat.leb _ _); [|discriminate]. rewrite T. apply (us_files _ _ H).
        * apply usable_no_error. exact H.
        * intros q Hq. rewrite T. eapply loc_path_not_prefix. exact Hq.
      + assert (Hne : loc_path root l <> result_path dir name).
        { rewrite T. intro K. apply loc_path_inj in K. congruence. }
        destruct (lookup s (loc_path root l)) as [[|c]|] eqn:El.
        * exfalso. exact (us_files _ _ H l El).
        * rewrite (P1 _ _ Hne El). discriminate.
        * destruct (P2 _ Hne El) as [K|[_ K]]; [congruence|].
          exfalso. exact (loc_path_not_prefix root l _ _ _ _ K eq_refl).
  Qed.

  Definition stands (s0 : fs) (l : location) (w : word R) : option node :=
    match w with
    | Untouched => lookup s0 (loc_path root l)
    | Holds r => Some (File (pickle r))
    | Torn r m => Some (File (take m (pickle r)))
    end.

  Lemma event_stands : forall s0 s e l w, usable root s ->
    lookup s (loc_path root l) = stands s0 l w ->
    lookup (run_event R pickle root s e) (loc_path root l) = stands s0 l (hear R l w e).
  Proof.
    intros s0 s e l w H Hl. unfold run_event, hear.
    set (dir := loc_dir root (e_loc R e)). set (name := l_name (e_loc R e)).
    set (b := pickle (e_result R e)).
    assert (T : result_path dir name = loc_path root (e_loc R e)) by reflexivity.
    destruct (location_eq_dec (e_loc R e) l) as [E|E].
    - rewrite <- E at 1. rewrite <- T. rewrite store_target.
      2: now apply usable_no_error.
      2: { intros q Hq. rewrite T. eapply loc_path_not_prefix. exact Hq. }
      rewrite store_ops_length by now apply usable_no_error.
      destruct (e_reach R e) as [|j|m]; cbn [steps].
      + destruct (Nat.leb_spec (List.length (mkdir_ops s dir) + S (String.length b))
          (List.length (mkdir_ops s dir))); [lia|].
        cbn [stands]. do 2 f_equal. apply take_all. fold b. lia.
      + destruct (Nat.leb_spec (Nat.min j (List.length (mkdir_ops s dir)))
          (List.length (mkdir_ops s dir))); [|lia].
        rewrite T, E. exact Hl.
      + destruct (Nat.leb_spec (List.length (mkdir_ops s dir) + S m)
          (List.length (mkdir_ops s dir))); [lia|].
        cbn [stands]. do 3 f_equal. lia.
    - match goal with |- lookup (apply_all s (firstn ?k _)) _ = _ => set (kk := k) end.
      destruct (store_prefix s dir name b kk) as [P1 P2].
      assert (Hne : loc_path root l <> result_path dir name).
      { rewrite T. intro K. apply loc_path_inj in K. congruence. }
      rewrite <- Hl.
      destruct (lookup s (loc_path root l)) as [n|] eqn:El.
      + apply (P1 _ _ Hne El).
      + destruct (P2 _ Hne El) as [K|[_ K]]; [exact K|].
        exfalso. exact (loc_path_not_prefix root l _ _ _ _ K eq_refl).
  Qed.

  Lemma history_stands : forall h s, usable root s ->
    usable root (run_events R pickle root s h) /\
    forall l, lookup (run_events R pickle root s h) (loc_path root l) =
              stands s l (outcome R h l).
  Proof.
    intros h s H. unfold run_events, outcome.
    assert (G : forall h s1 (w : location -> word R), usable root s1 ->
      (forall l, lookup s1 (loc_path root l) = stands s l (w l)) ->
      usable root (fold_left (run_event R pickle root) h s1) /\
      forall l, lookup (fold_left (run_event R pickle root) h s1) (loc_path root l) =
                stands s l (fold_left (hear R l) h (w l))).
    { clear h. induction h as [|e h IH]; intros s1 w H1 H2; cbn [fold_left]; [auto|].
      apply (IH (run_event R pickle root s1 e) (fun l => hear R l (w l) e)).
      - now apply usable_event.
      - intro l. now apply event_stands. }
    apply (G h s (fun _ => Untouched)); [exact H|reflexivity].
  Qed.

End Hist.

(** * Finished stores keep a tree *)
Lemma finished_store : forall s dir name b, dir <> [] -> store_error s dir name = None ->
  let s' := apply_all s (store_ops s dir name b) in
  (forall q, In q (prefixes dir) -> lookup s' q = Some Dir) /\
  lookup s' (result_path dir name) = Some (File b) /\
  (forall q, q <> result_path dir name -> ~ In q (prefixes dir) -> lookup s' q = lookup s q).
Proof.
  intros s dir name b Hd He s'.
  assert (Hne : forall q, In q (prefixes dir) -> q <> result_path dir name).
  { intros q Hq E. apply prefixes_in in Hq. destruct Hq as [_ (t & Ht)].
    apply (f_equal (@List.length string)) in Ht. subst q. unfold result_path in Ht.
    rewrite !app_length in Ht. cbn in Ht. lia. }
  assert (Es : s' = apply_all s (firstn (List.length (store_ops s dir name b))
    (store_ops s dir name b))) by (now rewrite firstn_all).
  destruct (store_prefix s dir name b (List.length (store_ops s dir name b))) as [P1 P2].
  rewrite <- Es in P1, P2.
  split; [|split].
  - intros q Hq. destruct (lookup s q) as [[|c]|] eqn:E.
    + apply P1; auto.
    + exfalso. unfold store_error in He.
      destruct (existsb (is_file s) (prefixes dir)) eqn:F; [discriminate|].
      assert (existsb (is_file s) (prefixes dir) = true); [|congruence].
      apply existsb_exists. exists q. split; [exact Hq|]. unfold is_file. now rewrite E.
    + unfold s', store_ops. unfold store_error in He.
      destruct (existsb (is_file s) (prefixes dir)); [discriminate|].
      rewrite apply_all_app.
      replace (match lookup s (result_path dir name) with Some Dir => []
        | _ => write_ops (result_path dir name) b end)
        with (write_ops (result_path dir name) b)
        by (destruct (lookup s (result_path dir name)) as [[|]|]; congruence).
      rewrite (proj2 (written_all _ _ _)) by (apply Hne; exact Hq).
      unfold mkdir_ops. rewrite lookup_mkdirs.
      assert (X : existsb (fun p => path_eqb p q) (filter (is_missing s) (prefixes dir)) = true).
      { apply existsb_exists. exists q. split.
        - apply filter_In. split; [exact Hq|]. unfold is_missing. now rewrite E.
        - destruct (path_eqb_spec q q); congruence. }
      now rewrite X.
  - rewrite Es, store_target by assumption. rewrite store_ops_length by assumption.
    destruct (Nat.leb_spec (List.length (mkdir_ops s dir) + S (String.length b))
        (List.length (mkdir_ops s dir))); [lia|].
    do 2 f_equal. apply take_all. lia.
  - intros q Hq Hn. destruct (lookup s q) as [n|] eqn:E; [now apply P1|].
    destruct (P2 q Hq E) as [K|[_ K]]; [exact K|contradiction].
Qed.

Lemma nodup_apply : forall os s, NoDup (map fst s) -> NoDup (map fst (apply_all s os)).
Proof.
  induction os as [|o os IH]; intros s H; cbn; [exact H|]. apply IH.
  destruct o as [p|p|p c]; cbn.
  - now apply keys_set.
  - now apply keys_set.
  - destruct (lookup s p) as [[|b]|]; auto. now apply keys_set.
Qed.

Lemma proper_prefix_result : forall q dir name, In q (prefixes (result_path dir name)) ->
  q <> result_path dir name -> In q (prefixes dir).
Proof.
  intros q dir name H Hne. apply prefixes_in in H. destruct H as [Hq (t & Ht)].
  apply prefixes_in. split; [exact Hq|]. unfold result_path in Ht.
  destruct (exists_last (l := t)) as (t' & x & ->).
  { intros ->. rewrite app_nil_r in Ht. apply Hne; unfold result_path; auto. }
  rewrite app_assoc in Ht. apply app_inj_tail in Ht. exists t'. tauto.
Qed.

Lemma prefixes_trans : forall q p r, In q (prefixes p) -> In p (prefixes r) ->
  In q (prefixes r).
Proof.
  intros q p r H1 H2. apply prefixes_in in H1, H2. destruct H1 as [H1 (t & ->)].
  destruct H2 as [_ (u & ->)]. apply prefixes_in. split; [exact H1|].
  exists (t ++ u)%list. now rewrite app_assoc.
Qed.

Lemma tree_store : forall s dir name b, tree s -> dir <> [] ->
  store_error s dir name = None -> tree (apply_all s (store_ops s dir name b)).
Proof.
  intros s dir name b T Hd He.
  destruct (finished_store s dir name b Hd He) as (F1 & F2 & F3).
  set (s' := apply_all s (store_ops s dir name b)) in *. constructor.
  - intros q p n Hq Hne Hl.
    destruct (list_eq_dec string_dec p (result_path dir name)) as [->|Hp].
    + apply F1. now apply proper_prefix_result with (name := name).
    + destruct (in_dec (list_eq_dec string_dec) p (prefixes dir)) as [Hi|Hi].
      * apply F1. eapply prefixes_trans; eauto.
      * rewrite F3 in Hl by assumption.
        pose proof (tr_parents _ T _ _ _ Hq Hne Hl) as Hqs.
        destruct (in_dec (list_eq_dec string_dec) q (prefixes dir)) as [Hj|Hj];
          [now apply F1|].
        rewrite F3; auto. intros ->. unfold store_error in He.
        destruct (existsb (is_file s) (prefixes dir)); [discriminate|].
        rewrite Hqs in He. discriminate.
  - apply nodup_apply. apply (tr_once _ T).
Qed.
