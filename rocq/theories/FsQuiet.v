(** Metric queries leave the results as they are. *)
Require Import String Ascii List Arith NArith Lia Bool Permutation Sorted.
From Verif Require Import PyStr PyStrFacts IdModel IdSpec IdProofs FsModel FsSpec FsProofs FsHist
  FsExtract FsRuns.
Import ListNotations.
Open Scope string_scope.

Lemma set_absent : forall s p n, lookup s p = None -> set s p n = (s ++ [(p, n)])%list.
Proof.
  induction s as [|[q m] s IH]; intros p n H; cbn in *; [reflexivity|].
  destruct (path_eqb_spec q p); [discriminate|]. now rewrite IH.
Qed.

Lemma lookup_app_absent : forall s p n q, lookup s p = None ->
  lookup (s ++ [(p, n)])%list q = if path_eqb p q then Some n else lookup s q.
Proof. intros. rewrite <- set_absent by assumption. apply lookup_set. Qed.

Lemma set_last : forall s p m n, lookup s p = None ->
  set (s ++ [(p, m)])%list p n = (s ++ [(p, n)])%list.
Proof.
  induction s as [|[q k] s IH]; intros p m n H; cbn in *.
  - destruct (path_eqb_spec p p); congruence.
  - destruct (path_eqb_spec q p); [discriminate|]. now rewrite IH.
Qed.

Lemma appends_last : forall cs s p b, lookup s p = None ->
  apply_all (s ++ [(p, File b)])%list (map (Append p) cs) =
  (s ++ [(p, File (b ++ string_of cs))])%list.
Proof.
  induction cs as [|c cs IH]; intros s p b H; cbn [map].
  - unfold apply_all. cbn. now rewrite app_nil_r_s.
  - unfold apply_all in *. cbn [fold_left apply].
    rewrite lookup_app_absent by assumption.
    destruct (path_eqb_spec p p) as [_|]; [|congruence].
    rewrite set_last by assumption. rewrite IH by assumption.
    now rewrite app_assoc_s.
Qed.

Lemma string_of_chars : forall b, string_of (chars b) = b.
Proof. induction b; cbn; congruence. Qed.

Lemma write_absent : forall s p b, lookup s p = None ->
  apply_all s (write_ops p b) = (s ++ [(p, File b)])%list.
Proof.
  intros s p b H. unfold write_ops, apply_all. cbn [fold_left apply].
  rewrite set_absent by assumption. change (fold_left apply) with (fun l s => apply_all s l).
  cbn beta. rewrite appends_last by assumption. cbn [append]. now rewrite string_of_chars.
Qed.

Lemma children_app : forall s s' p, children (s ++ s')%list p =
  (children s p ++ children s' p)%list.
Proof. intros. unfold children. apply flat_map_app. Qed.

Lemma digits_dot : forall a m acc, digits_value acc (a ++ "." ++ m) = None.
Proof.
  intros a m acc. rewrite digits_value_app. destruct (digits_value acc a); reflexivity.
Qed.

Lemma numbered_dotted : forall a m, numbered ((a ++ "." ++ m) ++ ".pickle") = None.
Proof.
  intros a m. unfold numbered. rewrite stem_ok. unfold int_of_str.
  pose proof (digits_dot a m 0) as H. destruct (a ++ "." ++ m); [reflexivity|]. now rewrite H.
Qed.

Lemma filter_insert : forall (f : string -> bool) x l,
  StronglySorted (le_by str_leb) l ->
  filter f (insert_by str_leb x l) =
  if f x then insert_by str_leb x (filter f l) else filter f l.
Proof.
  intros f x l S. induction S as [|y l S IH Hy]; cbn [insert_by filter].
  - destruct (f x); reflexivity.
  - destruct (str_leb x y) eqn:E; cbn [filter].
    + destruct (f x) eqn:Fx; [|reflexivity].
      destruct (f y) eqn:Fy; cbn [insert_by]; [now rewrite E|].
      assert (H : forall z, In z (filter f l) -> str_leb x z = true).
      { intros z Hz. apply filter_In in Hz. rewrite Forall_forall in Hy.
        eapply str_leb_trans; [exact E|]. apply Hy. tauto. }
      destruct (filter f l) as [|z r]; [reflexivity|]. cbn [insert_by].
      now rewrite H by now left.
    + rewrite IH. destruct (f x) eqn:Fx, (f y) eqn:Fy; try reflexivity.
      cbn [insert_by]. now rewrite E.
Qed.

Lemma filter_sort : forall (f : string -> bool) l,
  filter f (sort_by str_leb l) = sort_by str_leb (filter f l).
Proof.
  intros f. induction l as [|x l IH]; [reflexivity|]. change (sort_by str_leb (x :: l)) with (insert_by str_leb x (sort_by str_leb l)).
  rewrite filter_insert by apply (sort_by_sorted str_leb str_leb_total str_leb_trans).
  rewrite IH. cbn [filter]. destruct (f x); reflexivity.
Qed.

Section Quiet.
  Variable R : Type.
  Variable unpickle : string -> option R.

  Definition is_numbered (n : string) : bool := if numbered n then true else false.

  Lemma collect_filter : forall s dir run names,
    collect R unpickle s dir run names = collect R unpickle s dir run (filter is_numbered names).
  Proof.
    intros s dir run. induction names as [|n names IH]; [reflexivity|].
    cbn [collect filter]. unfold is_numbered at 1.
    destruct (numbered n) as [[st k]|] eqn:E; [|exact IH].
    cbn [collect]. rewrite E, IH. reflexivity.
  Qed.

  (** Adding one file that has no number for a name, in some run's directory. *)
  Lemma extract_added : forall s b root p0 a0 i0 name root' problem algo,
    numbered name = None ->
    lookup s (run_path root p0 a0 i0 ++ [name])%list = None ->
    extract R unpickle (s ++ [((run_path root p0 a0 i0 ++ [name])%list, File b)])%list
      root' problem algo = extract R unpickle s root' problem algo.
  Proof.
    intros s b root p0 a0 i0 name root' problem algo Hn Ha.
    set (t := (run_path root p0 a0 i0 ++ [name])%list) in *.
    set (s' := (s ++ [(t, File b)])%list).
    assert (Lt : List.length t = 5) by reflexivity.
    assert (Hl : forall q, q <> t -> lookup s' q = lookup s q).
    { intros q Hq. unfold s'. rewrite lookup_app_absent by assumption.
      destruct (path_eqb_spec t q); [congruence|reflexivity]. }
    assert (Hc : forall q, List.length q <> 4 -> children s' q = children s q).
    { intros q Hq. unfold s'. rewrite children_app. unfold children at 2. cbn [flat_map fst].
      destruct (child q t) as [n|] eqn:E; [|cbn; now rewrite app_nil_r].
      apply child_iff in E. apply (f_equal (@List.length string)) in E.
      rewrite app_length in E. cbn [List.length] in E. rewrite Lt in E. lia. }
    assert (Hload : forall dir k, List.length dir = 4 ->
      load R unpickle s' dir (str_of_N k) = load R unpickle s dir (str_of_N k)).
    { intros dir k Hd. unfold load, load_path, read. rewrite removelast_result.
      assert (E : existsb (is_file s') (prefixes dir) = existsb (is_file s) (prefixes dir)).
      { assert (X : forall l, (forall q, In q l -> q <> t) ->
          existsb (is_file s') l = existsb (is_file s) l).
        { induction l as [|q l IH]; intro H; [reflexivity|]. cbn [existsb].
          rewrite IH by (intros; apply H; now right).
          unfold is_file. rewrite Hl by (apply H; now left). reflexivity. }
        apply X. intros q Hq Et. apply prefixes_in in Hq. destruct Hq as [_ (u & Eu)].
        apply (f_equal (@List.length string)) in Eu. rewrite app_length in Eu. subst q. lia. }
      rewrite E. rewrite Hl; [reflexivity|].
      intro Et. unfold t, result_path in Et. apply app_inj_tail in Et.
      destruct Et as [_ Et]. rewrite <- Et, numbered_str in Hn. discriminate. }
    assert (Hcol : forall dir run names, List.length dir = 4 ->
      collect R unpickle s' dir run names = collect R unpickle s dir run names).
    { intros dir run names Hd. induction names as [|n names IH]; [reflexivity|].
      cbn [collect]. destruct (numbered n) as [[st k]|]; [|exact IH].
      rewrite Hload by assumption. now rewrite IH. }
    assert (Hm : forall dir run, List.length dir = 4 ->
      measured R unpickle s' dir run = measured R unpickle s dir run).
    { intros dir run Hd. unfold measured.
      rewrite Hl by (intro E; rewrite E, Lt in Hd; discriminate).
      destruct (lookup s dir) as [[|c]|]; try reflexivity.
      rewrite Hcol by assumption. rewrite collect_filter.
      rewrite (collect_filter s dir run (sort_by str_leb (children s dir))).
      rewrite !filter_sort. do 2 f_equal. unfold s'. rewrite children_app, filter_app.
      replace (filter is_numbered (children [(t, File b)] dir)) with (@nil string);
        [apply app_nil_r|].
      unfold children. cbn [flat_map fst]. destruct (child dir t) as [n|] eqn:E; [|reflexivity].
      apply child_iff in E. unfold t in E. apply app_inj_tail in E. destruct E as [_ <-].
      cbn. unfold is_numbered. now rewrite Hn. }
    assert (Hall : forall ids run,
      all_measured R unpickle s' [root'; problem; algo] run ids =
      all_measured R unpickle s [root'; problem; algo] run ids).
    { induction ids as [|id ids IH]; intro run; [reflexivity|]. cbn [all_measured].
      rewrite Hm by reflexivity. now rewrite IH. }
    unfold extract. rewrite Hl by discriminate.
    rewrite Hc by discriminate. now rewrite Hall.
  Qed.
End Quiet.
