(** Extraction after a history of stores; the metric cache. *)
Require Import String Ascii List Arith NArith Lia Bool Permutation Sorted.
From Verif Require Import PyStr PyStrFacts IdModel IdSpec IdProofs FsModel FsSpec FsProofs FsHist
  FsExtract.
Import ListNotations.
Open Scope string_scope.

Lemma each_run_in : forall listing id, In id (each_run listing) <->
  In id listing /\ parse_id id <> None.
Proof.
  intros listing id. unfold each_run. rewrite in_flat_map. split.
  - intros (n & Hn & Hi). rewrite sort_by_in in Hn.
    destruct (parse_id n) as [[d r]|] eqn:E; [|contradiction]. destruct Hi as [<-|[]].
    rewrite (proj1 (parse_id_rebuild _ _ _ E)). split; [exact Hn|congruence].
  - intros [H1 H2]. exists id. split; [now apply sort_by_in|].
    destruct (parse_id id) as [[d r]|] eqn:E; [|congruence]. left.
    apply (parse_id_rebuild _ _ _ E).
Qed.

Lemma each_run_sorted : forall listing, NoDup listing ->
  StronglySorted (fun a b => str_leb a b = true /\ a <> b) (each_run listing).
Proof.
  intros listing H.
  assert (E : forall l, flat_map (fun name =>
      match parse_id name with Some (d, r) => [id_of d r] | None => [] end) l
    = filter (fun name => if parse_id name then true else false) l).
  { induction l as [|x l IH]; [reflexivity|]. cbn [flat_map filter]. rewrite IH.
    destruct (parse_id x) as [[d r]|] eqn:P; [|reflexivity].
    now rewrite (proj1 (parse_id_rebuild _ _ _ P)). }
  unfold each_run. rewrite E.
  pose proof (sort_by_sorted str_leb str_leb_total str_leb_trans listing) as S.
  pose proof (sorted_nodup listing H) as N.
  induction S as [|x l S IH Hx]; cbn [filter]; [constructor|].
  inversion N as [|y z Hn Hd]; subst. destruct (parse_id x); [|now apply IH].
  constructor; [now apply IH|]. apply Forall_forall. intros y Hy. apply filter_In in Hy.
  rewrite Forall_forall in Hx. split; [apply Hx; tauto|]. intros ->. tauto.
Qed.

Section RunsProofs.
  Variable R : Type.
  Variable pickle : R -> string.
  Variable unpickle : string -> option R.
  Hypothesis codec : faithful pickle unpickle.
  Variable root : string.

  (** What a file system written by finished stores looks like. *)
  Record written (h : list (event R)) (s : fs) : Prop := {
    wr_tree : tree s;
    wr_usable : usable root s;
    wr_files : forall q b, lookup s q = Some (File b) ->
      exists l k r, q = loc_path root l /\ l_name l = str_of_N k /\ b = pickle r;
    wr_dirs : forall p a i, lookup s (run_path root p a i) = Some Dir <->
      exists e, In e h /\ of_run R p a i e;
    wr_base : forall p a, lookup s [root; p; a] = Some Dir <->
      exists e i, In e h /\ of_run R p a i e;
    wr_holds : forall l, lookup s (loc_path root l) = stands R pickle root [] l (outcome R h l)
  }.

  Lemma written_nil : written [] [].
  Proof.
    constructor; cbn.
    - constructor; cbn; [discriminate|constructor].
    - constructor; cbn; discriminate.
    - discriminate.
    - intros; split; [discriminate|]. intros (e & [] & _).
    - intros; split; [discriminate|]. intros (e & i & [] & _).
    - reflexivity.
  Qed.

  Lemma run_path_prefix : forall l q, q = run_path root (l_problem l) (l_algo l) (l_id l) ->
    In q (prefixes (loc_dir root l)).
  Proof. intros l q ->. apply prefixes_self. discriminate. Qed.

  Lemma written_step : forall h s e, written h s -> regular R e ->
    written (h ++ [e]) (run_event R pickle root s e).
  Proof.
    intros h s e W (Hr & Hid & k & Hk).
    assert (He : store_error s (loc_dir root (e_loc R e)) (l_name (e_loc R e)) = None)
      by (apply usable_no_error; apply (wr_usable _ _ W)).
    assert (Hd : loc_dir root (e_loc R e) <> []) by discriminate.
    assert (Es : run_event R pickle root s e = apply_all s (store_ops s
      (loc_dir root (e_loc R e)) (l_name (e_loc R e)) (pickle (e_result R e)))).
    { unfold run_event. rewrite Hr. cbn [steps]. now rewrite firstn_all. }
    destruct (finished_store s _ _ (pickle (e_result R e)) Hd He) as (F1 & F2 & F3).
    pose proof (usable_event R pickle root s e (wr_usable _ _ W)) as U.
    pose proof (tree_store s _ _ (pickle (e_result R e)) (wr_tree _ _ W) Hd He) as T.
    pose proof (fun l => event_stands R pickle root [] s e l (outcome R h l)
      (wr_usable _ _ W) (wr_holds _ _ W l)) as ST.
    rewrite Es in *. set (s' := apply_all s _) in *.
    set (target := result_path (loc_dir root (e_loc R e)) (l_name (e_loc R e))) in *.
    constructor; auto.
    - intros q b Hq. destruct (list_eq_dec string_dec q target) as [->|Hne].
      + rewrite F2 in Hq. inversion Hq; subst b. exists (e_loc R e), k, (e_result R e). auto.
      + destruct (in_dec (list_eq_dec string_dec) q (prefixes (loc_dir root (e_loc R e))))
          as [Hi|Hi]; [rewrite F1 in Hq by assumption; discriminate|].
        rewrite F3 in Hq by assumption. exact (wr_files _ _ W q b Hq).
    - intros p a i. assert (Hne : run_path root p a i <> target).
      { unfold target. fold (loc_path root (e_loc R e)).
        apply (loc_path_not_prefix root _ _ p a i). apply prefixes_self. discriminate. }
      destruct (in_dec (list_eq_dec string_dec) (run_path root p a i)
        (prefixes (loc_dir root (e_loc R e)))) as [Hi|Hi].
      + rewrite F1 by assumption. split; [intros _|reflexivity].
        exists e. split; [apply in_or_app; right; now left|].
        apply prefixes_in in Hi. destruct Hi as [_ (t & Ht)].
        unfold loc_dir, run_path in Ht. cbn in Ht. inversion Ht. repeat split; reflexivity.
      + rewrite F3 by assumption. rewrite (wr_dirs _ _ W). split.
        * intros (x & Hx & Ho). exists x. split; [apply in_or_app; now left|exact Ho].
        * intros (x & Hx & Ho). apply in_app_or in Hx. destruct Hx as [Hx|[<-|[]]].
          -- now exists x.
          -- exfalso. apply Hi. destruct Ho as (<- & <- & <-). now apply run_path_prefix.
    - intros p a.
      assert (Hp : forall i, In [root; p; a] (prefixes (run_path root p a i))).
      { intro i. apply prefixes_in. split; [discriminate|]. now exists [i]. }
      assert (Hne : [root; p; a] <> target).
      { unfold target. fold (loc_path root (e_loc R e)).
        apply (loc_path_not_prefix root _ _ p a ""). apply Hp. }
      destruct (in_dec (list_eq_dec string_dec) [root; p; a]
        (prefixes (loc_dir root (e_loc R e)))) as [Hi|Hi].
      + rewrite F1 by assumption. split; [intros _|reflexivity].
        exists e, (l_id (e_loc R e)). split; [apply in_or_app; right; now left|].
        apply prefixes_in in Hi. destruct Hi as [_ (t & Ht)].
        unfold loc_dir, run_path in Ht. cbn in Ht. inversion Ht. repeat split; reflexivity.
      + rewrite F3 by assumption. rewrite (wr_base _ _ W). split.
        * intros (x & i & Hx & Ho). exists x, i. split; [apply in_or_app; now left|exact Ho].
        * intros (x & i & Hx & Ho). apply in_app_or in Hx. destruct Hx as [Hx|[<-|[]]].
          -- now exists x, i.
          -- exfalso. apply Hi. destruct Ho as (<- & <- & _). apply Hp.
    - intro l. unfold outcome. rewrite fold_left_app. cbn [fold_left]. apply ST.
  Qed.

  Lemma written_run : forall h, Forall (regular R) h ->
    written h (run_events R pickle root [] h).
  Proof.
    intro h. induction h as [|e h IH] using rev_ind; intro H; [exact written_nil|].
    apply Forall_app in H. destruct H as [H1 H2]. inversion H2; subst.
    unfold run_events. rewrite fold_left_app. cbn [fold_left].
    apply written_step; auto.
  Qed.

  Lemma str_pickle_path : forall p a i k,
    result_path [root; p; a; i] (str_of_N k) =
    loc_path root {| l_problem := p; l_algo := a; l_id := i; l_name := str_of_N k |}.
  Proof. reflexivity. Qed.

  Lemma outcome_finished : forall h l, Forall (regular R) h ->
    outcome R h l = Untouched \/ exists r, outcome R h l = Holds r.
  Proof.
    intros h l. induction h as [|e h IH] using rev_ind; intro H; [now left|].
    apply Forall_app in H. destruct H as [H1 H2]. inversion H2 as [|x y (Hr & _) _]; subst.
    unfold outcome in *. rewrite fold_left_app. cbn [fold_left]. unfold hear at 1 3.
    destruct (location_eq_dec (e_loc R e) l); [|now apply IH].
    rewrite Hr. right. eexists. reflexivity.
  Qed.

  Lemma written_held : forall h s p a i k, Forall (regular R) h -> written h s ->
    held unpickle s [root; p; a] i k = last_stored R h p a i k.
  Proof.
    intros h s p a i k Hh W. unfold held, last_stored. cbn [app].
    rewrite str_pickle_path, (wr_holds _ _ W).
    set (l := {| l_problem := p |}).
    destruct (outcome_finished h l Hh) as [E|(r & E)]; rewrite E; cbn; [reflexivity|].
    apply codec.
  Qed.

  Lemma written_orderly : forall h s p a i, written h s -> orderly unpickle s [root; p; a; i].
  Proof.
    intros h s p a i W name st k Hin Hn. pose proof (numbered_inv _ _ _ Hn) as [Hname Hst].
    apply children_in in Hin. cbn [app] in *.
    assert (Hf : exists b, lookup s [root; p; a; i; name] = Some (File b)).
    { destruct (lookup s [root; p; a; i; name]) as [[|b]|] eqn:E; [|now exists b|congruence].
      exfalso. apply (us_files _ _ (wr_usable _ _ W)
        {| l_problem := p; l_algo := a; l_id := i; l_name := st |}).
      unfold loc_path, result_path, loc_dir, run_path. cbn [app l_problem l_algo l_id l_name].
      rewrite <- Hname. exact E. }
    destruct Hf as (b & Hb). destruct (wr_files _ _ W _ _ Hb) as (l & j & r & E1 & E2 & ->).
    assert (En : name = str_of_N j ++ ".pickle").
    { unfold loc_path, result_path, loc_dir, run_path in E1. cbn [app] in E1.
      pose proof (f_equal (fun x => nth 4 x "") E1) as K. cbn [nth] in K.
      now rewrite E2 in K. }
    assert (j = k).
    { rewrite En in Hname. apply app_inj_r in Hname. subst st. rewrite int_str in Hst.
      congruence. }
    subst j. split; [exact En|].
    intros b' Hb'. rewrite Hb in Hb'. inversion Hb'; subst. rewrite codec. discriminate.
  Qed.

  Lemma extract_after : forall h p a, Forall (regular R) h ->
    (exists e i, In e h /\ of_run R p a i e) ->
    exists ids groups,
      extract R unpickle (run_events R pickle root [] h) root p a = Good groups /\
      StronglySorted (fun x y => str_leb x y = true /\ x <> y) ids /\
      (forall i, In i ids <-> exists e, In e h /\ of_run R p a i e) /\
      StronglySorted N.lt (map fst groups) /\
      (forall k, In k (map fst groups) <->
        exists i, In i ids /\ last_stored R h p a i k <> None) /\
      (forall k e, In (k, e) groups ->
        map (fun x => (i_run R x, i_result R x)) e =
        flat_map (fun ix => match last_stored R h p a (snd ix) k with
                            | Some r => [(fst ix, r)] | None => [] end)
          (number_from 0 ids)).
  Proof.
    intros h p a Hh He. pose proof (written_run h Hh) as W.
    set (s := run_events R pickle root [] h) in *.
    set (ids := each_run (children s [root; p; a])).
    assert (Hids : forall i, In i ids <-> exists e, In e h /\ of_run R p a i e).
    { intro i. unfold ids. rewrite each_run_in, children_in. cbn [app].
      rewrite <- (wr_dirs _ _ W). unfold run_path. split.
      - intros [H _]. destruct (lookup s [root; p; a; i]) as [[|b]|] eqn:E; [reflexivity| |congruence].
        destruct (wr_files _ _ W _ _ E) as (l & _ & _ & K & _).
        unfold loc_path, result_path, loc_dir, run_path in K. discriminate.
      - intro H. split; [rewrite H; discriminate|].
        apply (wr_dirs _ _ W) in H. destruct H as (e & Hi & _ & _ & <-).
        rewrite Forall_forall in Hh. apply (Hh e Hi). }
    destruct (extract_ok R unpickle s root p a (wr_tree _ _ W)) as (groups & E1 & E2 & E3 & E4).
    - now apply (wr_base _ _ W).
    - intros i Hi. cbn [app]. split.
      + apply (wr_dirs _ _ W). now apply Hids.
      + eapply written_orderly. exact W.
    - exists ids, groups. repeat split; auto.
      + apply each_run_sorted. apply children_nodup. apply (tr_once _ (wr_tree _ _ W)).
      + apply Hids.
      + apply Hids.
      + intro H. apply E3 in H. destruct H as (i & Hi & Hh').
        exists i. split; [exact Hi|]. now rewrite <- (written_held h s p a i k Hh W).
      + intros (i & Hi & Hh'). apply E3. exists i. split; [exact Hi|].
        now rewrite (written_held h s p a i k Hh W).
      + intros k e Hk. rewrite (proj1 (E4 k e Hk)). unfold entry. fold ids.
        apply flat_map_ext. intros [i x]. cbn [fst snd]. now rewrite (written_held h s p a x k Hh W).
  Qed.
End RunsProofs.

(** * The metric cache *)
Lemma no_dot_cons : forall c s, no_dot (String c s) -> c <> "."%char /\ no_dot s.
Proof.
  intros c s H. split.
  - intros ->. apply (H "" s). reflexivity.
  - intros x y ->. apply (H (String c x) y). reflexivity.
Qed.

Lemma dotted_inj : forall a b m n, no_dot a -> no_dot b -> a ++ "." ++ m = b ++ "." ++ n ->
  a = b /\ m = n.
Proof.
  induction a as [|c a IH]; intros [|d b] m n Ha Hb E.
  - inversion E; auto.
  - inversion E; subst. apply no_dot_cons in Hb. destruct Hb as [Hb _]. congruence.
  - inversion E; subst. apply no_dot_cons in Ha. destruct Ha as [Ha _]. congruence.
  - cbn in E. inversion E; subst. apply no_dot_cons in Ha, Hb.
    destruct (IH b m n) as [-> ->]; tauto.
Qed.

Section Cache.
  Variables V P F : Type.
  Variable eqP : P -> P -> bool.
  Hypothesis eqP_ok : forall a b, eqP a b = true <-> a = b.
  Variable metric : string -> F -> P -> option V.
  Variable pickle_m : V * P -> string.
  Variable unpickle_m : string -> option (V * P).
  Hypothesis codec : faithful pickle_m unpickle_m.
  Variable fitness : path -> string -> F.

  Notation query := (query P).
  Notation mpath q := (metric_path (q_dir P q) (q_name P q) (q_metric P q)).

  Notation ask := (ask V P F metric fitness eqP pickle_m unpickle_m).
  Notation ask_all := (ask_all V P F metric fitness eqP pickle_m unpickle_m).
  Notation well := (well P).

  Lemma same_keyb_iff : forall a b : query, same_keyb P a b = true <-> same_key P a b.
  Proof.
    intros a b. unfold same_keyb, same_key. rewrite !andb_true_iff, !String.eqb_eq.
    destruct (path_eqb_spec (q_dir P a) (q_dir P b)); intuition congruence.
  Qed.

  Lemma mpath_inj : forall a b : query, no_dot (q_name P a) -> no_dot (q_name P b) ->
    mpath a = mpath b -> same_key P a b.
  Proof.
    intros a b Ha Hb E. unfold metric_path in E. apply result_path_inj in E.
    destruct E as [E1 E2]. apply dotted_inj in E2; auto. unfold same_key. tauto.
  Qed.

  Definition cached (s : fs) (earlier : list query) (q : query) : Prop :=
    match remembered V P F metric fitness earlier q with
    | None => lookup s (mpath q) = None
    | Some ps => exists v,
        metric (q_metric P q) (fitness (q_dir P q) (q_name P q)) ps = Some v /\
        lookup s (mpath q) = Some (File (pickle_m (v, ps)))
    end.

  Lemma remembered_snoc : forall earlier a q,
    remembered V P F metric fitness (earlier ++ [a]) q =
    match remembered V P F metric fitness earlier q with
    | Some ps => Some ps
    | None => if same_keyb P a q && (if true_value V P F metric fitness a then true else false)
              then Some (q_params P a) else None
    end.
  Proof.
    intros earlier a q. unfold remembered.
    induction earlier as [|x l IH]; cbn [app find].
    - destruct (same_keyb P a q && _); reflexivity.
    - destruct (same_keyb P x q && _); [reflexivity|exact IH].
  Qed.

  Lemma read_well : forall s q, well s q ->
    read s (mpath q) = match lookup s (mpath q) with
                       | None => Bad FileNotFound
                       | Some Dir => Bad IsADirectory
                       | Some (File b) => Good b
                       end.
  Proof.
    intros s q (H1 & H2 & _). unfold read. unfold metric_path at 1. rewrite removelast_result.
    destruct (existsb (is_file s) (prefixes (q_dir P q))) eqn:E; [|reflexivity].
    exfalso. apply existsb_exists in E. destruct E as (p & Hp & Ef).
    unfold is_file in Ef. now rewrite (H2 p Hp) in Ef.
  Qed.

  (** One query. *)
  Lemma ask_ok : forall s earlier q, well s q -> cached s earlier q ->
    answers V P F metric fitness earlier q (snd (fst (ask s q))) (snd (ask s q)) /\
    (forall q', well s q' -> cached s earlier q' ->
      well (fst (fst (ask s q))) q' /\ cached (fst (fst (ask s q))) (earlier ++ [q]) q') /\
    (forall p, p <> mpath q -> lookup (fst (fst (ask s q))) p = lookup s p).
  Proof.
    intros s earlier q W Cq. pose proof W as (W1 & W2 & W3).
    assert (Hdir : lookup s (q_dir P q) = Some Dir) by (apply W2; now apply prefixes_self).
    assert (Keep : forall q', cached s earlier q' ->
      (remembered V P F metric fitness earlier q <> None \/
       true_value V P F metric fitness q = None) ->
      cached s (earlier ++ [q]) q').
    { intros q' C' H. unfold cached in *. rewrite remembered_snoc.
      destruct (remembered V P F metric fitness earlier q') as [ps|] eqn:E; [exact C'|].
      destruct (same_keyb P q q') eqn:K; cbn [andb]; [|exact C'].
      destruct (true_value V P F metric fitness q) as [v|] eqn:Tv; [|exact C'].
      exfalso. destruct H as [H|H]; [|congruence].
      apply H. clear H. apply same_keyb_iff in K. revert E. unfold remembered.
      assert (X : forall x, same_keyb P x q' = same_keyb P x q).
      { intro x. destruct (same_keyb P x q') eqn:E1, (same_keyb P x q) eqn:E2; auto.
        - apply same_keyb_iff in E1. assert (same_keyb P x q = true); [|congruence].
          apply same_keyb_iff. unfold same_key in *. intuition congruence.
        - apply same_keyb_iff in E2. assert (same_keyb P x q' = true); [|congruence].
          apply same_keyb_iff. unfold same_key in *. intuition congruence. }
      clear - X. induction earlier as [|y l IH]; cbn [find]; [auto|].
      rewrite X. destruct (same_keyb P y q && _); [discriminate|exact IH]. }
    unfold FsSpec.ask, get_metric. rewrite read_well by assumption. unfold cached in Cq.
    destruct (remembered V P F metric fitness earlier q) as [ps|] eqn:Er.
    - destruct Cq as (v & Hv & Hl). rewrite Hl. pose proof (codec (v, ps)) as Ec. rewrite !Ec. cbn [fst snd].
      assert (K : forall q', well s q' -> cached s earlier q' ->
        well s q' /\ cached s (earlier ++ [q]) q').
      { intros q' W' C'. split; [exact W'|]. apply Keep; [exact C'|]. left. congruence. }
      split; [|split; [exact K|auto]].
      destruct (eqP ps (q_params P q)) eqn:Ep.
      + apply eqP_ok in Ep. subst ps. now apply again.
      + apply other_params with (ps := ps); [exact Er|]. intro E.
        apply eqP_ok in E. congruence.
    - rewrite Cq.
      fold (true_value V P F metric fitness q).
      destruct (true_value V P F metric fitness q) as [v|] eqn:Tv.
      + rewrite Hdir. cbn [fst snd].
        destruct (written_all s (mpath q) (pickle_m (v, q_params P q))) as [A1 A2].
        split; [now apply first_time|]. split; [|intros p Hp; now apply A2].
        intros q' W' C'. destruct W' as (V1 & V2 & V3). split.
        * split; [exact V1|]. split; [|exact V3]. intros p Hp. rewrite A2; [auto|].
          intros ->. rewrite V2 in Cq by assumption. discriminate.
        * unfold cached in *. rewrite remembered_snoc. rewrite Tv.
          destruct (same_keyb P q q') eqn:K.
          -- apply same_keyb_iff in K. pose proof K as (K1 & K2 & K3).
             assert (Er' : remembered V P F metric fitness earlier q' = None).
             { destruct (remembered V P F metric fitness earlier q') as [ps|] eqn:E'; [|reflexivity].
               destruct C' as (v' & _ & C'). rewrite <- K1, <- K2, <- K3 in C'. congruence. }
             rewrite Er'. cbn [andb]. exists v. rewrite <- K1, <- K2, <- K3. auto.
          -- cbn [andb].
             assert (Hne : mpath q' <> mpath q).
             { intro E. symmetry in E. apply mpath_inj in E; auto.
               apply same_keyb_iff in E. congruence. }
             rewrite A2 by exact Hne.
             destruct (remembered V P F metric fitness earlier q'); exact C'.
      + cbn [fst snd]. split; [now apply metric_raises|]. split; [|auto].
        intros q' W' C'. split; [exact W'|]. apply Keep; auto.
  Qed.

  Lemma ask_all_ok : forall qs s earlier,
    (forall q, In q qs -> well s q /\ cached s earlier q) ->
    List.length (snd (ask_all s qs)) = List.length qs /\
    forall i q a c, nth_error qs i = Some q -> nth_error (snd (ask_all s qs)) i = Some (a, c) ->
      answers V P F metric fitness (earlier ++ firstn i qs) q a c.
  Proof.
    induction qs as [|q qs IH]; intros s earlier H.
    - split; [reflexivity|]. intros [|i]; discriminate.
    - destruct (H q (or_introl eq_refl)) as [W C].
      destruct (ask_ok s earlier q W C) as (A1 & A2 & _). cbn [FsSpec.ask_all].
      destruct (IH (fst (fst (ask s q))) (earlier ++ [q])%list) as [I1 I2].
      { intros q' Hq'. destruct (H q' (or_intror Hq')) as [W' C']. now apply A2. }
      split; [cbn; now rewrite I1|].
      intros [|i] x a c Hx Ha; cbn [nth_error firstn snd] in *.
      + inversion Hx; inversion Ha; subst. rewrite app_nil_r. exact A1.
      + specialize (I2 i x a c Hx Ha). rewrite <- app_assoc in I2. exact I2.
  Qed.
End Cache.
