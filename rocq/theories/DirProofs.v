Require Import String Ascii List Arith NArith ZArith Lia Bool.
From Verif Require Import Base PyStr PyStrFacts IdModel IdProofs FsModel FsSpec FsProofs FsExtract DirModel DirSpec.
Import ListNotations.
Open Scope string_scope.

(** * Steps *)
Lemma lookup_remove : forall s p q, lookup (remove s p) q = if path_eqb p q then None else lookup s q.
Proof.
  unfold remove. induction s as [|[r n] s IH]; intros p q; cbn.
  - now destruct (path_eqb p q).
  - destruct (path_eqb_spec r p) as [->|E]; cbn.
    + rewrite IH. destruct (path_eqb p q); reflexivity.
    + rewrite IH. destruct (path_eqb_spec r q) as [->|F]; [|reflexivity].
      destruct (path_eqb_spec p q) as [->|_]; congruence.
Qed.

Lemma lookup_remove_eq s p : lookup (remove s p) p = None.
Proof. rewrite lookup_remove. now destruct (path_eqb_spec p p). Qed.

Lemma lookup_remove_ne s p q : q <> p -> lookup (remove s p) q = lookup s q.
Proof. intro H. rewrite lookup_remove. destruct (path_eqb_spec p q); congruence. Qed.

Lemma apply_ws_app a b s : apply_ws s (a ++ b) = apply_ws (apply_ws s a) b.
Proof. apply fold_left_app. Qed.

Lemma apply_ws_write os s : apply_ws s (map Write os) = apply_all s os.
Proof. revert s. induction os as [|o os IH]; intro s; cbn; [reflexivity|]. apply IH. Qed.

#[local] Arguments apply_ws : simpl never.

(** * Walking *)
Section Walk.
  Variable listing : fs -> path -> list string.
  Hypothesis Hl : some_order listing.
  Variable visit : fs -> path -> string -> list wop * option werr.
  (** A visit touches files of its own directory only, and no directories. *)
  Hypothesis Hv : forall s d n q, (forall m, q <> (d ++ [m])%list) ->
    lookup (apply_ws s (fst (visit s d n))) q = lookup s q.
  Hypothesis Hd : forall s d n q, lookup (apply_ws s (fst (visit s d n))) q = Some Dir <-> lookup s q = Some Dir.

  Definition at_file (s : fs) (w : path * string) := visit s (fst w) (snd w).

  Lemma each_dir_same : forall W s q, lookup (apply_ws s (fst (each at_file s W))) q = Some Dir <-> lookup s q = Some Dir.
  Proof.
    induction W as [|[d n] W IH]; intros s q; cbn; [tauto|]. unfold at_file at 1. cbn.
    pose proof (Hd s d n q) as A. destruct (visit s d n) as [os [e|]]; cbn in *; [exact A|].
    specialize (IH (apply_ws s os) q). destruct (each at_file (apply_ws s os) W) as [os' e']. cbn in *.
    rewrite apply_ws_app, IH. exact A.
  Qed.

  Lemma each_frame : forall W s q, (forall d n m, In (d, n) W -> q <> (d ++ [m])%list) ->
    lookup (apply_ws s (fst (each at_file s W))) q = lookup s q.
  Proof.
    induction W as [|[d n] W IH]; intros s q H; cbn; [reflexivity|]. unfold at_file at 1. cbn.
    pose proof (Hv s d n q (fun m => H d n m (or_introl eq_refl))) as A.
    destruct (visit s d n) as [os [e|]]; cbn in *; [exact A|].
    specialize (IH (apply_ws s os) q (fun d' n' m I => H d' n' m (or_intror I))).
    destruct (each at_file (apply_ws s os) W) as [os' e']. cbn in *. rewrite apply_ws_app, IH. exact A.
  Qed.

  Lemma each_app : forall W1 W2 s, each at_file s (W1 ++ W2) =
    match each at_file s W1 with
    | (os, Some e) => (os, Some e)
    | (os, None) => let (os', e') := each at_file (apply_ws s os) W2 in ((os ++ os')%list, e')
    end.
  Proof.
    induction W1 as [|w W1 IH]; intros W2 s; cbn.
    - change (apply_ws s []) with s. now destruct (each at_file s W2).
    - destruct (at_file s w) as [os [e|]]; [reflexivity|]. rewrite IH.
      destruct (each at_file (apply_ws s os) W1) as [os' [e'|]]; [reflexivity|].
      rewrite apply_ws_app. destruct (each at_file (apply_ws (apply_ws s os) os') W2) as [o2 e2].
      now rewrite app_assoc.
  Qed.

  (** A file in or below [dir], all of the directories on the way being directories. *)
  Definition reached (s : fs) (dir : path) (w : path * string) : Prop :=
    exists r, fst w = (dir ++ r)%list /\ is_file s (fst w ++ [snd w])%list = true /\
      forall r1 r2, r = (r1 ++ r2)%list -> lookup s (dir ++ r1)%list = Some Dir.

  Lemma each_names : forall dir names s,
    each (fun s' n => visit s' dir n) s names = each at_file s (map (pair dir) names).
  Proof.
    intros dir. induction names as [|n names IH]; intro s; cbn; [reflexivity|]. unfold at_file at 1. cbn.
    destruct (visit s dir n) as [os [e|]]; [reflexivity|]. now rewrite IH.
  Qed.

  Lemma reached_frame : forall s s' dir, (forall q r, q = (dir ++ r)%list -> lookup s' q = lookup s q) ->
    forall w, reached s' dir w <-> reached s dir w.
  Proof.
    intros s s' dir H [d n]. unfold reached, is_file. cbn. split; intros (r & -> & F & P); exists r; (split; [reflexivity|]).
    - rewrite (H _ (r ++ [n])%list) in F by (now rewrite app_assoc). split; [exact F|].
      intros r1 r2 E. rewrite <- (H _ r1) by reflexivity. now apply (P r1 r2).
    - rewrite (H _ (r ++ [n])%list) by (now rewrite app_assoc). split; [exact F|].
      intros r1 r2 E. rewrite (H _ r1) by reflexivity. now apply (P r1 r2).
  Qed.

  Lemma app_cons_ne : forall (dir : path) x y r r', x <> y -> (dir ++ x :: r)%list <> (dir ++ y :: r')%list.
  Proof. intros dir x y r r' H E. apply app_inv_head in E. congruence. Qed.

  (** The subdirectories, one after the other. *)
  Lemma subdirs_flat : forall (f : fs -> path -> list wop * option werr) dir (ok : fs -> Prop),
    (forall s s', (forall q, lookup s' q = Some Dir <-> lookup s q = Some Dir) -> ok s -> ok s') ->
    forall subs,
    (forall s x, ok s -> In x subs -> lookup s (dir ++ [x])%list = Some Dir ->
      exists W, f s (dir ++ [x])%list = each at_file s W /\ NoDup W /\
        forall w, In w W <-> reached s (dir ++ [x])%list w) ->
    NoDup subs -> forall s, ok s -> (forall x, In x subs -> lookup s (dir ++ [x])%list = Some Dir) ->
    exists W, each (fun s' n => f s' (dir ++ [n])%list) s subs = each at_file s W /\ NoDup W /\
      forall w, In w W <-> exists x, In x subs /\ reached s (dir ++ [x])%list w.
  Proof.
    intros f dir ok Hok subs Hf Hn. induction subs as [|x subs IH]; intros s Hs Hx.
    - exists []. cbn. split; [reflexivity|]. split; [constructor|]. intro w. split; [intros []|intros (x & [] & _)].
    - inversion Hn as [|? ? Hnx Hns]; subst.
      destruct (Hf s x Hs (or_introl eq_refl) (Hx x (or_introl eq_refl))) as (W1 & E1 & N1 & I1).
      set (s1 := apply_ws s (fst (each at_file s W1))).
      assert (D1 : forall q, lookup s1 q = Some Dir <-> lookup s q = Some Dir) by (intro q; apply each_dir_same).
      destruct (IH (fun s' x' A B C => Hf s' x' A (or_intror B) C) Hns s1 (Hok s s1 D1 Hs)) as (W2 & E2 & N2 & I2).
      { intros y Hy. apply D1, Hx. now right. }
      assert (F : forall y q r, y <> x -> q = ((dir ++ [y]) ++ r)%list -> lookup s1 q = lookup s q).
      { intros y q r Hy ->. apply each_frame. intros d n m Hi E. apply I1 in Hi. destruct Hi as (r1 & Hr & _). cbn in Hr.
        rewrite Hr, <- !app_assoc in E. cbn in E. revert E. now apply app_cons_ne. }
      assert (F' : forall y w, In y subs -> reached s1 (dir ++ [y])%list w <-> reached s (dir ++ [y])%list w).
      { intros y w Hy. apply reached_frame. intros q r. apply F. intros ->. contradiction. }
      exists (W1 ++ W2)%list. split; [|split].
      + cbn [each]. rewrite E1, each_app. fold s1.
        destruct (each at_file s W1) as [os [e|]] eqn:Q; [reflexivity|]. subst s1. cbn [fst] in E2. now rewrite E2.
      + apply NoDup_app_disj; [exact N1|exact N2|]. intros w A B. apply I1 in A. apply I2 in B. destruct B as (y & Hy & B).
        destruct A as (r & A & _), B as (r' & B & _). rewrite A, <- !app_assoc in B. cbn in B. revert B.
        apply app_cons_ne. intros ->. contradiction.
      + intro w. rewrite in_app_iff, I1, I2. split.
        * intros [A|(y & Hy & A)]; [exists x; split; [now left|exact A]|]. exists y. split; [now right|]. now apply F'.
        * intros (y & [<-|Hy] & A); [now left|right]. exists y. split; [exact Hy|]. now apply F'.
  Qed.

  (** A walk visits every file below its directory once, in some order. *)
  Lemma walk_flat : forall fuel s dir, lookup s dir = Some Dir ->
    (forall q, lookup s q = Some Dir -> (length q < fuel + length dir)%nat) ->
    exists W, walk listing visit fuel s dir = each at_file s W /\ NoDup W /\ forall w, In w W <-> reached s dir w.
  Proof.
    induction fuel as [|fuel IH]; intros s dir Hdir Hb.
    - specialize (Hb dir Hdir). lia.
    - cbn [walk]. rewrite Hdir.
      set (files := filter (fun n => is_file s (dir ++ [n])%list) (listing s dir)).
      set (subs := filter (fun n => is_dir s (dir ++ [n])%list) (listing s dir)).
      rewrite each_names. set (W0 := map (pair dir) files).
      destruct (Hl s dir) as [Ln Li].
      assert (N0 : NoDup W0).
      { apply FinFun.Injective_map_NoDup; [intros a b E; now inversion E|]. now apply NoDup_filter. }
      assert (I0 : forall w, In w W0 <-> fst w = dir /\ is_file s (dir ++ [snd w])%list = true).
      { intros [d n]. unfold W0, files. rewrite in_map_iff. cbn. split.
        - intros (m & E & Hm). inversion E; subst. apply filter_In in Hm. tauto.
        - intros [-> Hf]. exists n. split; [reflexivity|]. apply filter_In. split; [|exact Hf]. apply Li.
          unfold is_file in Hf. destruct (lookup s (dir ++ [n])%list); [discriminate|discriminate]. }
      assert (Is : forall x, In x subs <-> lookup s (dir ++ [x])%list = Some Dir).
      { intro x. unfold subs. rewrite filter_In, Li. unfold is_dir.
        destruct (lookup s (dir ++ [x])%list) as [[|b]|]; split; try (intros [? ?]); intros; try congruence; split; congruence. }
      set (s1 := apply_ws s (fst (each at_file s W0))).
      assert (D1 : forall q, lookup s1 q = Some Dir <-> lookup s q = Some Dir) by (intro q; apply each_dir_same).
      destruct (subdirs_flat (fun s' d => walk listing visit fuel s' d) dir
        (fun s' => forall q, lookup s' q = Some Dir <-> lookup s q = Some Dir)) with (subs := subs) (s := s1)
        as (W & E & N & I).
      { intros a b Hab Ha q. rewrite Hab. apply Ha. }
      { intros a x Ha Hx Hax. apply IH; [exact Hax|]. intros q Hq. rewrite app_length. cbn.
        specialize (Hb q (proj1 (Ha q) Hq)). lia. }
      { apply NoDup_filter, Ln. }
      { exact D1. }
      { intros x Hx. apply D1, Is, Hx. }
      assert (F' : forall x w, In x subs -> reached s1 (dir ++ [x])%list w <-> reached s (dir ++ [x])%list w).
      { intros x w Hx. apply reached_frame. intros q r ->. apply Is in Hx. destruct r as [|y r].
        - rewrite app_nil_r, Hx. apply D1, Hx.
        - apply each_frame. intros d n m Hi E'. apply I0 in Hi. cbn in Hi. destruct Hi as [-> _].
          rewrite <- app_assoc in E'. apply app_inv_head in E'. cbn in E'. inversion E'. }
      exists (W0 ++ W)%list. split; [|split].
      + rewrite each_app. destruct (each at_file s W0) as [os [e|]] eqn:Q; [reflexivity|].
        subst s1. cbn [fst] in E. now rewrite E.
      + apply NoDup_app_disj; [exact N0|exact N|]. intros w A B. apply I0 in A. apply I in B.
        destruct A as [A _], B as (x & _ & r & B & _). rewrite A, <- app_assoc in B. cbn in B.
        rewrite <- (app_nil_r dir) in B at 1. apply app_inv_head in B. discriminate.
      + intro w. rewrite in_app_iff, I0, I. split.
        * intros [[A B]|(x & Hx & A)].
          -- exists []. rewrite app_nil_r. rewrite A. split; [reflexivity|]. split; [exact B|].
             intros r1 r2 E'. symmetry in E'. apply app_eq_nil in E'. destruct E' as [-> _]. now rewrite app_nil_r.
          -- apply F' in A; [|exact Hx]. destruct A as (r & A & B & C). exists (x :: r).
             split; [rewrite A, <- app_assoc; reflexivity|]. split; [exact B|].
             intros [|y r1] r2 E'; [now rewrite app_nil_r|]. cbn in E'. inversion E'; subst.
             specialize (C r1 r2 eq_refl). now rewrite <- app_assoc in C.
        * intros (r & A & B & C). destruct r as [|x r].
          -- left. rewrite app_nil_r in A. rewrite <- A at 2. split; [exact A|exact B].
          -- right. exists x. assert (Hx : In x subs) by (apply Is; apply (C [x] r); reflexivity).
             split; [exact Hx|]. apply F'; [exact Hx|]. exists r. rewrite <- app_assoc. split; [exact A|].
             split; [exact B|]. intros r1 r2 ->. rewrite <- app_assoc. now apply (C (x :: r1) r2).
  Qed.
End Walk.

(** * Names *)
Fixpoint lastc (d : ascii) (s : string) : ascii :=
  match s with EmptyString => d | String c s' => lastc c s' end.

Lemma lastc_app : forall a d c b, lastc d (a ++ String c b) = lastc c b.
Proof. induction a as [|x a IH]; intros d c b; cbn; [reflexivity|apply IH]. Qed.

Lemma json_not_pickle : forall n m : string, (n ++ ".json")%string <> (m ++ ".pickle")%string.
Proof.
  intros n m E. apply (f_equal (lastc "."%char)) in E. rewrite !lastc_app in E. discriminate.
Qed.

Lemma json_path_not_pickle : forall (d d' : path) (n m : string),
  (d ++ [(n ++ ".json")%string])%list <> (d' ++ [(m ++ ".pickle")%string])%list.
Proof. intros d d' n m E. apply app_inj_tail in E. destruct E as [_ E]. exact (json_not_pickle _ _ E). Qed.

Lemma ends_with_iff : forall suf f, ends_with suf f = true <-> exists n, f = (n ++ suf)%string.
Proof.
  intros suf f. unfold ends_with. rewrite andb_true_iff, Nat.leb_le, String.eqb_eq. split.
  - intros [L E]. exists (substring 0 (String.length f - String.length suf) f). rewrite <- E at 2.
    symmetry. apply substring_split. lia.
  - intros [n ->]. rewrite length_app_s. split; [lia|].
    replace (String.length n + String.length suf - String.length suf)%nat with (String.length n) by lia.
    rewrite substring_skip. apply take_all. lia.
Qed.

Lemma pickle_name_ok : forall n, pickle_name (n ++ ".json") = (n ++ ".pickle")%string.
Proof.
  intro n. unfold pickle_name. rewrite length_app_s.
  replace (String.length n + String.length ".json" - 4)%nat with (String.length (n ++ ".")) by (rewrite length_app_s; cbn; lia).
  change ".json" with ("." ++ "json")%string. rewrite <- (app_assoc_s n "." "json").
  rewrite substring_first, app_assoc_s. reflexivity.
Qed.

(** * Converting *)
Section Json.
  Variable V : Type.
  Variable json_load : string -> option V.
  Variable pickle : V -> string.
  Notation conv := (json2pickle V json_load pickle).

  (** What a visit does: nothing, or one file. *)
  Lemma conv_cases : forall s d f,
    (fst (conv s d f) = [] /\
      ((forall n, f <> (n ++ ".json")%string) -> snd (conv s d f) = None)) \/
    exists n b v, f = (n ++ ".json")%string /\ lookup s (d ++ [f])%list = Some (File b) /\ json_load b = Some v /\
      lookup s (d ++ [(n ++ ".pickle")%string])%list <> Some Dir /\
      conv s d f = ((map Write (write_ops (d ++ [(n ++ ".pickle")%string])%list (pickle v)) ++ [Remove (d ++ [f])])%list, None).
  Proof.
    intros s d f. unfold json2pickle. destruct (ends_with ".json" f) eqn:E.
    - apply ends_with_iff in E. destruct E as [n ->]. rewrite pickle_name_ok.
      destruct (lookup s (d ++ [(n ++ ".json")%string])%list) as [[|b]|] eqn:L;
        try (left; split; [reflexivity|]; intro H; exfalso; exact (H n eq_refl)).
      destruct (json_load b) as [v|] eqn:J; [|left; split; [reflexivity|]; intro H; exfalso; exact (H n eq_refl)].
      destruct (lookup s (d ++ [(n ++ ".pickle")%string])%list) as [[|b']|] eqn:T;
        try (left; split; [reflexivity|]; intro H; exfalso; exact (H n eq_refl));
        right; exists n, b, v; repeat split; auto; congruence.
    - left. split; reflexivity.
  Qed.

  (** A conversion cut off after [k] steps. *)
  Lemma conv_prefix : forall s p t b x k, lookup s p = Some (File b) -> lookup s t <> Some Dir -> p <> t ->
    let os := (map Write (write_ops t x) ++ [Remove p])%list in
    let s' := apply_ws s (firstn k os) in
    (forall q, q <> p -> q <> t -> lookup s' q = lookup s q) /\
    (lookup s' t <> Some Dir) /\
    (lookup s' p = Some (File b) \/ lookup s' p = None /\ lookup s' t = Some (File x) /\ (length os <= k)%nat) /\
    ((length os <= k)%nat -> lookup s' p = None /\ lookup s' t = Some (File x)).
  Proof.
    intros s p t b x k Hp Ht Hpt os s'. destruct (Nat.le_gt_cases (length os) k) as [L|L].
    - assert (E : s' = remove (apply_all s (write_ops t x)) p).
      { unfold s'. rewrite firstn_all2 by exact L. unfold os. rewrite apply_ws_app, apply_ws_write. reflexivity. }
      rewrite E. destruct (written_all s t x) as [W1 W2]. rewrite lookup_remove_eq, (lookup_remove_ne _ p t) by auto. rewrite W1.
      split; [|split; [discriminate|split; [right|]; auto]].
      intros q A B. rewrite lookup_remove_ne by exact A. now apply W2.
    - assert (E : s' = apply_all s (firstn k (write_ops t x))).
      { unfold s'. unfold os in *. rewrite app_length, map_length in L. cbn [length] in L.
        rewrite firstn_app, map_length. replace (k - length (write_ops t x))%nat with 0%nat by lia.
        cbn [firstn]. rewrite app_nil_r, firstn_map, apply_ws_write. reflexivity. }
      rewrite E. destruct k as [|k].
      + cbn [firstn]. unfold apply_all. cbn [fold_left]. repeat split; auto; lia.
      + destruct (written_at k s t x) as [W1 W2]. rewrite W1, (W2 p) by auto.
        split; [intros q A B; now apply W2|]. split; [discriminate|]. split; [now left|lia].
  Qed.

  Lemma conv_all : forall s p t b x, lookup s p = Some (File b) -> lookup s t <> Some Dir -> p <> t ->
    let s' := apply_ws s (map Write (write_ops t x) ++ [Remove p])%list in
    (forall q, q <> p -> q <> t -> lookup s' q = lookup s q) /\ lookup s' p = None /\ lookup s' t = Some (File x).
  Proof.
    intros s p t b x Hp Ht Hpt.
    destruct (conv_prefix s p t b x (length (map Write (write_ops t x) ++ [Remove p])) Hp Ht Hpt) as (A & _ & _ & B).
    rewrite firstn_all in A, B. split; [exact A|]. now apply B.
  Qed.

  Lemma conv_touch : forall s d n q, (forall m, q <> (d ++ [m])%list) ->
    lookup (apply_ws s (fst (conv s d n))) q = lookup s q.
  Proof.
    intros s d f q H. destruct (conv_cases s d f) as [[-> _]|(n & b & v & E & L & J & T & ->)]; [reflexivity|].
    cbn [fst]. apply (conv_all s _ _ b (pickle v) L T); [subst f; apply json_path_not_pickle|apply H|apply H].
  Qed.

  Lemma conv_dirs : forall s d n q, lookup (apply_ws s (fst (conv s d n))) q = Some Dir <-> lookup s q = Some Dir.
  Proof.
    intros s d f q. destruct (conv_cases s d f) as [[-> _]|(n & b & v & E & L & J & T & ->)]; [tauto|].
    cbn [fst]. destruct (conv_all s _ _ b (pickle v) L T) as (A & B & C); [subst f; apply json_path_not_pickle|].
    destruct (path_eqb_spec q (d ++ [f])%list) as [->|N1]; [rewrite B, L; split; discriminate|].
    destruct (path_eqb_spec q (d ++ [(n ++ ".pickle")%string])%list) as [->|N2]; [rewrite C; split; [discriminate|tauto]|].
    now rewrite A.
  Qed.

  Notation run := (each (at_file conv)).

  (** A document that is gone stays gone, and its pickle is not touched again. *)
  Lemma done_stays : forall W s k d n, lookup s (d ++ [(n ++ ".json")%string])%list = None ->
    lookup (apply_ws s (firstn k (fst (run s W)))) (d ++ [(n ++ ".json")%string])%list = None /\
    lookup (apply_ws s (firstn k (fst (run s W)))) (d ++ [(n ++ ".pickle")%string])%list =
      lookup s (d ++ [(n ++ ".pickle")%string])%list.
  Proof.
    induction W as [|[d0 f0] W IH]; intros s k d n H; cbn [each].
    - cbn [fst]. rewrite firstn_nil. auto.
    - change (at_file conv s (d0, f0)) with (conv s d0 f0).
      destruct (conv_cases s d0 f0) as [[E _]|(n0 & b & v & E & L & J & T & C)].
      + destruct (conv s d0 f0) as [os [e|]]; cbn [fst] in E; subst os; [cbn [fst]; rewrite firstn_nil; auto|].
        change (apply_ws s []) with s. specialize (IH s k d n H). destruct (run s W) as [os e]. exact IH.
      + rewrite C. set (os := (map Write (write_ops (d0 ++ [(n0 ++ ".pickle")%string])%list (pickle v)) ++ [Remove (d0 ++ [f0])])%list).
        assert (Hne : (d0 ++ [f0])%list <> (d0 ++ [(n0 ++ ".pickle")%string])%list) by (subst f0; apply json_path_not_pickle).
        assert (N1 : (d ++ [(n ++ ".json")%string])%list <> (d0 ++ [f0])%list) by (intro Q; rewrite Q in H; congruence).
        assert (N2 : (d ++ [(n ++ ".json")%string])%list <> (d0 ++ [(n0 ++ ".pickle")%string])%list) by apply json_path_not_pickle.
        assert (N3 : (d ++ [(n ++ ".pickle")%string])%list <> (d0 ++ [f0])%list).
        { subst f0. intro Q. symmetry in Q. exact (json_path_not_pickle _ _ _ _ Q). }
        assert (N4 : (d ++ [(n ++ ".pickle")%string])%list <> (d0 ++ [(n0 ++ ".pickle")%string])%list).
        { intro Q. apply app_inj_tail in Q. destruct Q as [-> Q]. apply app_inj_r in Q. subst n0 f0. now apply N1. }
        destruct (run (apply_ws s os) W) as [os' e'] eqn:R. cbn [fst]. rewrite firstn_app, apply_ws_app.
        destruct (conv_prefix s _ _ b (pickle v) k L T Hne) as (A & _ & _ & _). fold os in A.
        destruct (Nat.le_gt_cases (length os) k) as [K|K].
        * rewrite (firstn_all2 os) in * by exact K.
          specialize (IH (apply_ws s os) (k - length os)%nat d n). rewrite R in IH. cbn [fst] in IH.
          rewrite (A _ N1 N2), (A _ N3 N4) in IH. now apply IH.
        * replace (k - length os)%nat with 0%nat by lia. cbn [firstn]. unfold apply_ws at 1 3. cbn [fold_left].
          now rewrite (A _ N1 N2), (A _ N3 N4).
  Qed.

  (** Whatever the moment of the crash, a document is either still there or completely converted. *)
  Lemma document_safe : forall W s k d n b, lookup s (d ++ [(n ++ ".json")%string])%list = Some (File b) ->
    let s' := apply_ws s (firstn k (fst (run s W))) in
    lookup s' (d ++ [(n ++ ".json")%string])%list = Some (File b) \/
    lookup s' (d ++ [(n ++ ".json")%string])%list = None /\
      exists v, json_load b = Some v /\ lookup s' (d ++ [(n ++ ".pickle")%string])%list = Some (File (pickle v)).
  Proof.
    induction W as [|[d0 f0] W IH]; intros s k d n b H; cbn [each].
    - cbn [fst]. rewrite firstn_nil. auto.
    - change (at_file conv s (d0, f0)) with (conv s d0 f0).
      destruct (conv_cases s d0 f0) as [[E _]|(n0 & b0 & v & E & L & J & T & C)].
      + destruct (conv s d0 f0) as [os [e|]]; cbn [fst] in E; subst os; [cbn [fst]; rewrite firstn_nil; auto|].
        change (apply_ws s []) with s. specialize (IH s k d n b H). destruct (run s W) as [os e]. exact IH.
      + rewrite C. set (os := (map Write (write_ops (d0 ++ [(n0 ++ ".pickle")%string])%list (pickle v)) ++ [Remove (d0 ++ [f0])])%list).
        assert (Hne : (d0 ++ [f0])%list <> (d0 ++ [(n0 ++ ".pickle")%string])%list) by (subst f0; apply json_path_not_pickle).
        assert (N2 : (d ++ [(n ++ ".json")%string])%list <> (d0 ++ [(n0 ++ ".pickle")%string])%list) by apply json_path_not_pickle.
        destruct (run (apply_ws s os) W) as [os' e'] eqn:R. cbn [fst]. rewrite firstn_app, apply_ws_app.
        destruct (conv_prefix s _ _ b0 (pickle v) k L T Hne) as (A & _ & B & B'). fold os in A, B, B'.
        destruct (path_eqb_spec (d ++ [(n ++ ".json")%string])%list (d0 ++ [f0])%list) as [Q|N1].
        * subst f0. apply app_inj_tail in Q. destruct Q as [-> Q]. apply app_inj_r in Q. subst n0.
          rewrite H in L. inversion L; subst b0.
          destruct (Nat.le_gt_cases (length os) k) as [K|K].
          -- right. rewrite (firstn_all2 os) in * by exact K. destruct (B' K) as [B1 B2].
             destruct (done_stays W (apply_ws s os) (k - length os)%nat d0 n B1) as [D1 D2]. rewrite R in D1, D2. cbn [fst] in D1, D2.
             split; [exact D1|]. exists v. split; [exact J|]. now rewrite D2.
          -- replace (k - length os)%nat with 0%nat by lia. cbn [firstn]. left. unfold apply_ws at 1. cbn [fold_left].
             destruct B as [B|(_ & _ & B)]; [exact B|lia].
        * destruct (Nat.le_gt_cases (length os) k) as [K|K].
          -- rewrite (firstn_all2 os) in * by exact K.
             specialize (IH (apply_ws s os) (k - length os)%nat d n b). rewrite R in IH. cbn [fst] in IH.
             rewrite (A _ N1 N2) in IH. now apply IH.
          -- replace (k - length os)%nat with 0%nat by lia. cbn [firstn]. left. unfold apply_ws at 1. cbn [fold_left].
             now rewrite (A _ N1 N2).
  Qed.

  (** Everything else is left alone. *)
  Lemma others_kept : forall W s k q,
    (forall d n b, In (d, (n ++ ".json")%string) W -> lookup s (d ++ [(n ++ ".json")%string])%list = Some (File b) ->
       q <> (d ++ [(n ++ ".json")%string])%list /\ q <> (d ++ [(n ++ ".pickle")%string])%list) ->
    lookup (apply_ws s (firstn k (fst (run s W)))) q = lookup s q.
  Proof.
    induction W as [|[d0 f0] W IH]; intros s k q H; cbn [each].
    - cbn [fst]. now rewrite firstn_nil.
    - change (at_file conv s (d0, f0)) with (conv s d0 f0).
      destruct (conv_cases s d0 f0) as [[E _]|(n0 & b0 & v & E & L & J & T & C)].
      + destruct (conv s d0 f0) as [os [e|]]; cbn [fst] in E; subst os; [cbn [fst]; now rewrite firstn_nil|].
        change (apply_ws s []) with s. specialize (IH s k q (fun d n b I => H d n b (or_intror I))). destruct (run s W) as [os e]. exact IH.
      + rewrite C. set (os := (map Write (write_ops (d0 ++ [(n0 ++ ".pickle")%string])%list (pickle v)) ++ [Remove (d0 ++ [f0])])%list).
        assert (Hne : (d0 ++ [f0])%list <> (d0 ++ [(n0 ++ ".pickle")%string])%list) by (subst f0; apply json_path_not_pickle).
        destruct (H d0 n0 b0) as [N1 N2]; [left; now rewrite E|now rewrite <- E|]. rewrite <- E in N1.
        destruct (run (apply_ws s os) W) as [os' e'] eqn:R. cbn [fst]. rewrite firstn_app, apply_ws_app.
        destruct (conv_prefix s _ _ b0 (pickle v) k L T Hne) as (A & _ & B & B'). fold os in A, B, B'.
        destruct (Nat.le_gt_cases (length os) k) as [K|K].
        * rewrite (firstn_all2 os) in * by exact K.
          specialize (IH (apply_ws s os) (k - length os)%nat q). rewrite R in IH. cbn [fst] in IH.
          rewrite <- (A q N1 N2). apply IH. intros d n b I Hb. apply (H d n b (or_intror I)).
          destruct (path_eqb_spec (d ++ [(n ++ ".json")%string])%list (d0 ++ [f0])%list) as [Q|M1].
          -- rewrite Q in Hb. destruct (B' K) as [B1 _]. congruence.
          -- rewrite <- (A _ M1 (json_path_not_pickle _ _ _ _)). exact Hb.
        * replace (k - length os)%nat with 0%nat by lia. cbn [firstn]. unfold apply_ws at 1. cbn [fold_left]. now apply A.
  Qed.

  (** If all documents can be read and converted the loop ends normally and all are converted. *)
  Lemma all_done : forall W s, NoDup W ->
    (forall d f, In (d, f) W -> is_file s (d ++ [f])%list = true) ->
    (forall d n b, In (d, (n ++ ".json")%string) W -> lookup s (d ++ [(n ++ ".json")%string])%list = Some (File b) ->
       json_load b <> None /\ lookup s (d ++ [(n ++ ".pickle")%string])%list <> Some Dir) ->
    snd (run s W) = None /\
    forall d n, In (d, (n ++ ".json")%string) W ->
      lookup (apply_ws s (fst (run s W))) (d ++ [(n ++ ".json")%string])%list = None.
  Proof.
    induction W as [|[d0 f0] W IH]; intros s Hn Hf H; cbn [each].
    - cbn. split; [reflexivity|]. intros d n [].
    - inversion Hn as [|? ? Hn0 HnW]; subst. change (at_file conv s (d0, f0)) with (conv s d0 f0).
      destruct (conv_cases s d0 f0) as [[E E']|(n0 & b0 & v & E & L & J & T & C)].
      + destruct (ends_with ".json" f0) eqn:EJ.
        { exfalso. apply ends_with_iff in EJ. destruct EJ as [n ->]. pose proof (Hf _ _ (or_introl eq_refl)) as F.
          unfold is_file in F. destruct (lookup s (d0 ++ [(n ++ ".json")%string])%list) as [[|b]|] eqn:LL; try discriminate.
          destruct (H d0 n b (or_introl eq_refl) LL) as [H1 H2].
          unfold json2pickle in E. rewrite (proj2 (ends_with_iff _ _) (ex_intro _ n eq_refl)), LL, pickle_name_ok in E.
          destruct (json_load b) as [v|]; [|congruence].
          destruct (lookup s (d0 ++ [(n ++ ".pickle")%string])%list) as [[|b']|]; [congruence|discriminate|discriminate]. }
        assert (NJ : forall n, f0 <> (n ++ ".json")%string).
        { intros n ->. rewrite (proj2 (ends_with_iff _ _) (ex_intro _ n eq_refl)) in EJ. discriminate. }
        specialize (E' NJ). destruct (conv s d0 f0) as [os e]; cbn [fst snd] in E, E'; subst os e.
        change (apply_ws s []) with s. destruct (IH s HnW (fun d f I => Hf d f (or_intror I)) (fun d n b I => H d n b (or_intror I))) as [I1 I2].
        destruct (run s W) as [os e]. cbn [fst snd app] in *. split; [exact I1|]. intros d n [Q|I]; [inversion Q; subst; exfalso; now apply (NJ n)|].
        now apply I2.
      + rewrite C. set (os := (map Write (write_ops (d0 ++ [(n0 ++ ".pickle")%string])%list (pickle v)) ++ [Remove (d0 ++ [f0])])%list).
        assert (Hne : (d0 ++ [f0])%list <> (d0 ++ [(n0 ++ ".pickle")%string])%list) by (subst f0; apply json_path_not_pickle).
        destruct (conv_all s _ _ b0 (pickle v) L T Hne) as (A & B1 & B2). fold os in A, B1, B2.
        assert (M : forall d f, In (d, f) W -> (d ++ [f])%list <> (d0 ++ [f0])%list).
        { intros d f I Q. apply app_inj_tail in Q. destruct Q as [-> ->]. contradiction. }
        destruct (IH (apply_ws s os) HnW) as [I1 I2].
        { intros d f I. unfold is_file. destruct (path_eqb_spec (d ++ [f])%list (d0 ++ [(n0 ++ ".pickle")%string])%list) as [->|N2]; [now rewrite B2|].
          rewrite (A _ (M d f I) N2). apply (Hf d f (or_intror I)). }
        { intros d n b I Hb. assert (Hs : lookup s (d ++ [(n ++ ".json")%string])%list = Some (File b)).
          { rewrite <- (A _ (M d _ I) (json_path_not_pickle _ _ _ _)). exact Hb. }
          destruct (H d n b (or_intror I) Hs) as [H1 H2]. split; [exact H1|].
          destruct (path_eqb_spec (d ++ [(n ++ ".pickle")%string])%list (d0 ++ [(n0 ++ ".pickle")%string])%list) as [->|N2]; [now rewrite B2|].
          rewrite (A _); [exact H2| |exact N2]. subst f0. intro Q. symmetry in Q. exact (json_path_not_pickle _ _ _ _ Q). }
        destruct (run (apply_ws s os) W) as [os' e'] eqn:R. cbn [fst snd] in *. split; [exact I1|].
        intros d n [Q|I]; rewrite apply_ws_app.
        * assert (Qd : d0 = d) by congruence. assert (Qf : f0 = (n ++ ".json")%string) by congruence. subst d. pose proof (done_stays W (apply_ws s os) (length os') d0 n) as D.
          rewrite R in D. cbn [fst] in D. rewrite firstn_all in D. rewrite Qf in B1. now apply D.
        * now apply I2.
  Qed.

  (** A normal end means that every document could be read and is gone. *)
  Lemma normal_end : forall W s, NoDup W -> snd (run s W) = None ->
    forall d n b, In (d, (n ++ ".json")%string) W -> lookup s (d ++ [(n ++ ".json")%string])%list = Some (File b) ->
      json_load b <> None /\ lookup (apply_ws s (fst (run s W))) (d ++ [(n ++ ".json")%string])%list = None.
  Proof.
    induction W as [|[d0 f0] W IH]; intros s Hn He d n b I Hb; [destruct I|]. cbn [each] in *.
    inversion Hn as [|? ? Hn0 HnW]; subst.
    change (at_file conv s (d0, f0)) with (conv s d0 f0) in *.
    destruct (conv_cases s d0 f0) as [[E E']|(n0 & b0 & v & E & L & J & T & C)].
    - destruct I as [Q|I].
      + exfalso. assert (Qd : d0 = d) by congruence. assert (Qf : f0 = (n ++ ".json")%string) by congruence. subst d f0.
        unfold json2pickle in E, He. rewrite (proj2 (ends_with_iff _ _) (ex_intro _ n eq_refl)), Hb, pickle_name_ok in E, He.
        destruct (json_load b) as [v|]; [|discriminate He].
        destruct (lookup s (d0 ++ [(n ++ ".pickle")%string])%list) as [[|b']|]; [discriminate He|discriminate E|discriminate E].
      + destruct (conv s d0 f0) as [os [e|]]; cbn [fst] in E; subst os; [discriminate|].
        change (apply_ws s []) with s in *. specialize (IH s HnW). destruct (run s W) as [os e]. cbn [fst snd app] in *.
        now apply (IH He d n b).
    - rewrite C in *. set (os := (map Write (write_ops (d0 ++ [(n0 ++ ".pickle")%string])%list (pickle v)) ++ [Remove (d0 ++ [f0])])%list) in *.
      assert (Hne : (d0 ++ [f0])%list <> (d0 ++ [(n0 ++ ".pickle")%string])%list) by (subst f0; apply json_path_not_pickle).
      destruct (conv_all s _ _ b0 (pickle v) L T Hne) as (A & B1 & B2). fold os in A, B1, B2.
      destruct (run (apply_ws s os) W) as [os' e'] eqn:R. cbn [fst snd] in *. rewrite apply_ws_app.
      destruct I as [Q|I].
      + assert (Qd : d0 = d) by congruence. assert (Qf : f0 = (n ++ ".json")%string) by congruence. subst d.
        rewrite Qf in *. rewrite Hb in L. inversion L; subst b0. split; [congruence|].
        pose proof (done_stays W (apply_ws s os) (length os') d0 n B1) as D.
        rewrite R in D. cbn [fst] in D. rewrite firstn_all in D. apply D.
      + assert (M : (d ++ [(n ++ ".json")%string])%list <> (d0 ++ [f0])%list).
        { intro Q. apply app_inj_tail in Q. destruct Q as [-> Q]. rewrite Q in I. contradiction. }
        specialize (IH (apply_ws s os) HnW). rewrite R in IH. cbn [fst snd] in IH. apply (IH He d n b I).
        rewrite (A _ M (json_path_not_pickle _ _ _ _)). exact Hb.
  Qed.

  (** * The whole tool *)
  Lemma depth_bound : forall s q, lookup s q <> None -> (length q < depth s)%nat.
  Proof.
    intros s q H. unfold depth. induction s as [|[p n] s IH]; cbn in *; [congruence|].
    destruct (path_eqb_spec p q) as [->|_]; [lia|]. specialize (IH H). lia.
  Qed.

  Section Tool.
    Variable listing : fs -> path -> list string.
    Hypothesis Hl : some_order listing.

    Lemma convert_flat : forall s root, exists W,
      convert V json_load pickle listing s root = run s W /\ NoDup W /\
      (forall w, In w W -> reached s root w) /\
      (lookup s root = Some Dir -> forall w, reached s root w -> In w W).
    Proof.
      intros s root. destruct (lookup s root) as [[|b]|] eqn:L.
      - destruct (walk_flat listing Hl conv conv_touch conv_dirs (depth s) s root L) as (W & A & B & C).
        { intros q Hq. pose proof (depth_bound s q). rewrite Hq in *. assert (length q < depth s)%nat by (apply H; discriminate). lia. }
        exists W. split; [exact A|]. split; [exact B|]. split; [apply C|]. intros _ w. apply C.
      - exists []. unfold convert, depth. cbn [walk]. rewrite L. cbn. split; [reflexivity|]. split; [constructor|].
        split; [intros w []|discriminate].
      - exists []. unfold convert, depth. cbn [walk]. rewrite L. cbn. split; [reflexivity|]. split; [constructor|].
        split; [intros w []|discriminate].
    Qed.

    Lemma convert_safe : forall s root k, let s' := killed_after s (convert V json_load pickle listing s root) k in
      (forall p p' b, json_file s root p p' b ->
        lookup s' p = Some (File b) \/
        lookup s' p = None /\ exists v, json_load b = Some v /\ lookup s' p' = Some (File (pickle v))) /\
      (forall q, apart_from_json s root q -> lookup s' q = lookup s q).
    Proof.
      intros s root k. unfold killed_after. destruct (convert_flat s root) as (W & -> & N & I & _). cbv zeta. split.
      - intros p p' b (d & n & -> & -> & H). rewrite app_assoc in H |- *. rewrite (app_assoc root d [(n ++ ".pickle")%string]). now apply document_safe.
      - intros q H. apply others_kept. intros d n b Hi Hb. destruct (I _ Hi) as (r & Hr & _). cbn in Hr. subst d.
        rewrite <- !app_assoc in *. apply (H _ _ b). exists r, n. auto.
    Qed.

    (** Every document lies in a directory. *)
    Definition housed (s : fs) (root : path) : Prop :=
      forall d n b, lookup s (root ++ d ++ [(n ++ ".json")%string])%list = Some (File b) ->
      forall d1 d2, d = (d1 ++ d2)%list -> lookup s (root ++ d1)%list = Some Dir.

    Lemma housed_reached : forall s root d n b, housed s root ->
      lookup s (root ++ d ++ [(n ++ ".json")%string])%list = Some (File b) ->
      lookup s root = Some Dir /\ reached s root ((root ++ d)%list, (n ++ ".json")%string).
    Proof.
      intros s root d n b H L. split.
      - rewrite <- (app_nil_r root). exact (H d n b L [] d eq_refl).
      - exists d. cbn. split; [reflexivity|]. split; [unfold is_file; now rewrite <- app_assoc, L|]. exact (H d n b L).
    Qed.

    Lemma tree_housed : forall s root, root <> [] -> tree s -> housed s root.
    Proof.
      intros s root Hr T d n b L d1 d2 ->. apply (tr_parents s T _ (root ++ (d1 ++ d2) ++ [(n ++ ".json")%string])%list (File b)); [| |exact L].
      - apply prefixes_in. split; [destruct root; [congruence|discriminate]|]. exists (d2 ++ [(n ++ ".json")%string])%list.
        now rewrite <- !app_assoc.
      - intro E. rewrite <- !app_assoc in E. rewrite app_assoc in E. rewrite <- (app_nil_r (root ++ d1)) in E at 1.
        apply app_inv_head in E. destruct d2; discriminate.
    Qed.

    Lemma final_killed : forall s r, final s r = killed_after s r (length (fst r)).
    Proof. intros s r. unfold final, killed_after. now rewrite firstn_all. Qed.

    Lemma convert_normal : forall s root, housed s root ->
      snd (convert V json_load pickle listing s root) = None ->
      forall p p' b, json_file s root p p' b -> exists v, json_load b = Some v /\
        lookup (final s (convert V json_load pickle listing s root)) p = None /\
        lookup (final s (convert V json_load pickle listing s root)) p' = Some (File (pickle v)).
    Proof.
      intros s root Hh He p p' b J. pose proof (convert_safe s root) as S. setoid_rewrite <- final_killed in S || idtac.
      specialize (S (length (fst (convert V json_load pickle listing s root)))). rewrite <- final_killed in S.
      destruct S as [S _]. specialize (S p p' b J). destruct J as (d & n & -> & -> & L).
      destruct (housed_reached _ _ _ _ _ Hh L) as [Rd Rr].
      destruct (convert_flat s root) as (W & E & N & _ & I). rewrite E in *.
      destruct (normal_end W s N He (root ++ d)%list n b (I Rd _ Rr)) as [_ F]; [now rewrite <- app_assoc|].
      fold (final s (run s W)) in F. rewrite <- app_assoc in F.
      destruct S as [S|(S & v & J & S')]; [congruence|]. exists v. auto.
    Qed.

    Lemma convert_ends : forall s root, housed s root ->
      (forall p p' b, json_file s root p p' b -> json_load b <> None /\ lookup s p' <> Some Dir) ->
      snd (convert V json_load pickle listing s root) = None.
    Proof.
      intros s root Hh H. destruct (convert_flat s root) as (W & -> & N & I & _).
      refine (proj1 (all_done W s N _ _)).
      - intros d f Hi. destruct (I _ Hi) as (r & _ & F & _). exact F.
      - intros d n b Hi Hb. destruct (I _ Hi) as (r & Hr & _). cbn in Hr. subst d.
        apply (H (root ++ r ++ [(n ++ ".json")%string])%list). exists r, n. rewrite <- !app_assoc in *. auto.
    Qed.
  End Tool.

  Lemma json_or_apart : forall s root q,
    (exists p p' b, json_file s root p p' b /\ (q = p \/ q = p')) \/ apart_from_json s root q.
  Proof.
    intros s root q. destruct q as [|x q] using rev_ind.
    { right. intros p p' b (d & n & -> & -> & _). split; intro E; symmetry in E; rewrite app_assoc in E; apply app_eq_nil in E; destruct E; discriminate. }
    clear IHq. destruct (list_eq_dec string_dec (firstn (length root) q) root) as [E|E].
    - rewrite <- (firstn_skipn (length root) q), E. set (d := skipn (length root) q). clearbody d. clear E q.
      rewrite <- app_assoc.
      assert (Cases : (exists n, x = (n ++ ".json")%string) \/ (exists n, x = (n ++ ".pickle")%string) \/
        (forall n, x <> (n ++ ".json")%string /\ x <> (n ++ ".pickle")%string)).
      { destruct (ends_with ".json" x) eqn:A; [left; now apply ends_with_iff|]. right.
        destruct (ends_with ".pickle" x) eqn:B; [left; now apply ends_with_iff|]. right. intro n. split; intros ->.
        - rewrite (proj2 (ends_with_iff _ _) (ex_intro _ n eq_refl)) in A. discriminate.
        - rewrite (proj2 (ends_with_iff _ _) (ex_intro _ n eq_refl)) in B. discriminate. }
      destruct Cases as [[n ->]|[[n ->]|N]].
      + destruct (lookup s (root ++ d ++ [(n ++ ".json")%string])%list) as [[|b]|] eqn:L.
        2: { left. exists (root ++ d ++ [(n ++ ".json")%string])%list, (root ++ d ++ [(n ++ ".pickle")%string])%list, b.
             split; [exists d, n; auto|now left]. }
        all: right; intros p p' b (d' & n' & -> & -> & L'); split; [intro Q; congruence|rewrite !app_assoc; apply json_path_not_pickle].
      + destruct (lookup s (root ++ d ++ [(n ++ ".json")%string])%list) as [[|b]|] eqn:L.
        2: { left. exists (root ++ d ++ [(n ++ ".json")%string])%list, (root ++ d ++ [(n ++ ".pickle")%string])%list, b.
             split; [exists d, n; auto|now right]. }
        all: right; intros p p' b (d' & n' & -> & -> & L'); split; intro Q;
          [symmetry in Q; rewrite !app_assoc in Q; exact (json_path_not_pickle _ _ _ _ Q)|].
        all: apply app_inv_head, app_inj_tail in Q; destruct Q as [-> Q]; apply app_inj_r in Q; congruence.
      + right. intros p p' b (d' & n' & -> & -> & L'). split; intro Q; apply app_inv_head, app_inj_tail in Q; destruct Q as [_ Q]; destruct (N n') as [X Y]; contradiction.
    - right. intros p p' b (d & n & -> & -> & _). split; intro Q; rewrite app_assoc in Q; apply app_inj_tail in Q; destruct Q as [-> _];
        apply E; rewrite firstn_app, Nat.sub_diag, firstn_all, app_nil_r; reflexivity.
  Qed.

  (** A second run after a crash of the first. *)
  Lemma rerun : forall l1 l2 s root k, some_order l1 -> some_order l2 -> housed s root ->
    (forall p p' b, json_file s root p p' b -> json_load b <> None /\ lookup s p' <> Some Dir) ->
    let s1 := killed_after s (convert V json_load pickle l1 s root) k in
    snd (convert V json_load pickle l2 s1 root) = None /\
    forall q, lookup (final s1 (convert V json_load pickle l2 s1 root)) q =
              lookup (final s (convert V json_load pickle l1 s root)) q.
  Proof.
    intros l1 l2 s root k H1 H2 Hh Hc s1.
    destruct (convert_safe l1 H1 s root k) as [S1 S2]. fold s1 in S1, S2.
    (* documents of [s1] are documents of [s] *)
    assert (JJ : forall p p' b, json_file s1 root p p' b -> json_file s root p p' b).
    { intros p p' b (d & n & Ep & Ep' & L). destruct (lookup s p) as [[|b']|] eqn:Ls.
      - rewrite S2 in L; [congruence|]. intros x x' c (d' & n' & -> & -> & Lx). split; [intros ->; congruence|].
        rewrite Ep, !app_assoc. apply json_path_not_pickle.
      - destruct (S1 p p' b') as [A|[A _]]; [exists d, n; auto| |congruence]. exists d, n. repeat split; auto. congruence.
      - rewrite S2 in L; [congruence|]. intros x x' c (d' & n' & -> & -> & Lx). split; [intros ->; congruence|].
        rewrite Ep, !app_assoc. apply json_path_not_pickle. }
    assert (Dd : forall q, lookup s q = Some Dir -> lookup s1 q = Some Dir).
    { intros q Hq. rewrite S2; [exact Hq|]. intros p p' b J. destruct (Hc p p' b J) as [_ N]. destruct J as (d & n & _ & _ & L).
      split; [intros ->; congruence|intros ->; congruence]. }
    assert (T1 : forall p p' b, json_file s1 root p p' b -> lookup s1 p' <> Some Dir).
    { intros p p' b J. pose proof (JJ p p' b J) as Js. destruct (Hc p p' b Js) as [_ N].
      (* the pickle of a document is a file or missing throughout *)
      assert (Q : lookup s1 p' = Some Dir -> lookup s p' = Some Dir); [|intro Y; exact (N (Q Y))].
      intro Y. unfold s1, killed_after in Y. destruct (convert_flat l1 H1 s root) as (W & E & _). rewrite E in Y.
      clear - Y. revert s k Y. induction W as [|[d0 f0] W IH]; intros s k Y; cbn [each] in Y.
      - cbn [fst] in Y. rewrite firstn_nil in Y. exact Y.
      - change (at_file conv s (d0, f0)) with (conv s d0 f0) in Y.
        destruct (conv_cases s d0 f0) as [[E _]|(n0 & b0 & v & E & L & J & T & C)].
        + destruct (conv s d0 f0) as [os [e|]]; cbn [fst] in E; subst os; [cbn [fst] in Y; rewrite firstn_nil in Y; exact Y|].
          change (apply_ws s []) with s in Y. specialize (IH s k). destruct (run s W) as [os e]. now apply IH.
        + rewrite C in Y. set (os := (map Write (write_ops (d0 ++ [(n0 ++ ".pickle")%string])%list (pickle v)) ++ [Remove (d0 ++ [f0])])%list) in *.
          assert (Hne : (d0 ++ [f0])%list <> (d0 ++ [(n0 ++ ".pickle")%string])%list) by (subst f0; apply json_path_not_pickle).
          destruct (run (apply_ws s os) W) as [os' e'] eqn:R. cbn [fst] in Y. rewrite firstn_app, apply_ws_app in Y.
          destruct (conv_prefix s _ _ b0 (pickle v) k L T Hne) as (A & B0 & B & B'). fold os in A, B0, B, B'.
          assert (Z : lookup (apply_ws s (firstn k os)) p' = Some Dir).
          { destruct (Nat.le_gt_cases (length os) k) as [K|K].
            - rewrite (firstn_all2 os) in * by exact K. specialize (IH (apply_ws s os) (k - length os)%nat). rewrite R in IH. now apply IH.
            - replace (k - length os)%nat with 0%nat in Y by lia. exact Y. }
          destruct (path_eqb_spec p' (d0 ++ [f0])%list) as [->|N1]; [destruct B as [B|[B _]]; congruence|].
          destruct (path_eqb_spec p' (d0 ++ [(n0 ++ ".pickle")%string])%list) as [->|N2]; [congruence|].
          now rewrite <- (A p' N1 N2). }
    assert (Hh1 : housed s1 root).
    { intros d n b L d1 d2 E. apply Dd. destruct (JJ _ _ b (ex_intro _ d (ex_intro _ n (conj eq_refl (conj eq_refl L)))))
        as (d' & n' & Q & _ & L'). apply app_inv_head, app_inj_tail in Q. destruct Q as [Q _]. subst d'.
      apply (Hh d n b) with (d2 := d2); [|exact E]. exact L'. }
    assert (E2 : snd (convert V json_load pickle l2 s1 root) = None).
    { apply convert_ends; [exact H2|exact Hh1|]. intros p p' b J. split; [apply (Hc p p' b (JJ p p' b J))|exact (T1 p p' b J)]. }
    assert (E1 : snd (convert V json_load pickle l1 s root) = None) by (apply convert_ends; assumption).
    split; [exact E2|].
    pose proof (convert_normal l1 H1 s root Hh E1) as F1. pose proof (convert_normal l2 H2 s1 root Hh1 E2) as F2.
    pose proof (proj2 (convert_safe l1 H1 s root (length (fst (convert V json_load pickle l1 s root))))) as G1.
    pose proof (proj2 (convert_safe l2 H2 s1 root (length (fst (convert V json_load pickle l2 s1 root))))) as G2.
    rewrite <- final_killed in G1, G2.
    set (f1 := final s (convert V json_load pickle l1 s root)) in *.
    set (f2 := final s1 (convert V json_load pickle l2 s1 root)) in *.
    (* documents and their pickles *)
    assert (K : forall p p' b, json_file s root p p' b -> lookup f2 p = lookup f1 p /\ lookup f2 p' = lookup f1 p').
    { intros p p' b J. destruct (F1 p p' b J) as (v & Jv & A & B). rewrite A, B.
      destruct (S1 p p' b J) as [Q|(Q & v' & Jv' & Q')].
      - assert (J1 : json_file s1 root p p' b) by (destruct J as (d & n & X & Y & _); exists d, n; auto).
        destruct (F2 p p' b J1) as (v2 & Jv2 & A2 & B2). rewrite A2, B2. split; congruence.
      - assert (Ap : apart_from_json s1 root p /\ apart_from_json s1 root p').
        { destruct J as (d & n & -> & -> & L). split; intros x x' c Jx; pose proof Jx as (d' & n' & -> & -> & Lx); split.
          - intro X. rewrite <- X, Q in Lx. discriminate.
          - rewrite !app_assoc. apply json_path_not_pickle.
          - intro X. symmetry in X. rewrite !app_assoc in X. exact (json_path_not_pickle _ _ _ _ X).
          - intro X. rewrite !app_assoc in X. apply app_inj_tail in X. destruct X as [X1 X2]. apply app_inv_head in X1. apply app_inj_r in X2.
            subst d' n'. rewrite Q in Lx. discriminate. }
        rewrite (G2 p), (G2 p'), Q, Q' by apply Ap. split; congruence. }
    intro q. destruct (json_or_apart s root q) as [(p & p' & b & J & [->| ->])|N]; [apply (K p p' b J)|apply (K p p' b J)|].
    rewrite (G1 q N), <- (S2 q N); apply G2; intros p p' b J; apply (N p p' b), JJ, J.
  Qed.
End Json.
