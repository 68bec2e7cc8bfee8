(** Theorems about stored results and cached metrics: C67, C68, C69, C109. *)
Require Import String Ascii List Arith NArith Lia Bool Permutation Sorted.
From Verif Require Import PyStr PyStrFacts IdModel IdSpec IdProofs FsModel FsSpec FsProofs FsHist
  FsExtract FsRuns FsQuiet.
Import ListNotations.
Open Scope string_scope.

(** A codec for the examples: lists of bits, written as 0s and 1s and ended by a dot (as pickles
    are ended by the opcode for stop, which is a dot). *)
Fixpoint toy_pickle (l : list bool) : string :=
  match l with
  | [] => "."
  | b :: l' => String (if b then "1" else "0")%char (toy_pickle l')
  end.

Fixpoint toy_unpickle (s : string) : option (list bool) :=
  match s with
  | EmptyString => None
  | String c s' =>
      if Ascii.eqb c "."%char then Some []
      else match toy_unpickle s' with
           | Some l => Some (Ascii.eqb c "1"%char :: l)
           | None => None
           end
  end.

Lemma toy_faithful : faithful toy_pickle toy_unpickle.
Proof. intro l. induction l as [|[] l IH]; cbn; [reflexivity|now rewrite IH|now rewrite IH]. Qed.

Lemma toy_cut : cut_detected toy_pickle toy_unpickle.
Proof.
  intro l. induction l as [|b l IH]; intros m H; cbn [toy_pickle String.length] in H.
  - assert (m = 0) by lia. subst. reflexivity.
  - destruct m as [|m]; [reflexivity|]. cbn [toy_pickle substring toy_unpickle].
    rewrite IH by lia. now destruct b.
Qed.

(** * C67 *)

(** A store that raises no error is read back, whatever the file system was. *)
Theorem C67_store_then_load : forall R pickle (unpickle : string -> option R) s dir name r,
  faithful pickle unpickle -> dir <> [] -> store_error s dir name = None ->
  load R unpickle (store R pickle s dir name r) dir name = Good r.
Proof.
  intros R pickle unpickle s dir name r Hc Hd He.
  destruct (finished_store s dir name (pickle r) Hd He) as (F1 & F2 & _).
  unfold load, load_path, read, store. rewrite removelast_result.
  destruct (existsb (is_file _) (prefixes dir)) eqn:E.
  - exfalso. apply existsb_exists in E. destruct E as (q & Hq & Ef).
    unfold is_file in Ef. now rewrite F1 in Ef.
  - rewrite F2. now rewrite Hc.
Qed.
Print Assumptions C67_store_then_load.

(** Wherever a store is cut off, everything that was there, except the file being written, is
    still there, and nothing has appeared but directories on the way to that file. *)
Theorem C67_crash_leaves_the_rest : forall s dir name bytes k q,
  let s' := apply_all s (firstn k (store_ops s dir name bytes)) in
  q <> result_path dir name ->
  (forall n, lookup s q = Some n -> lookup s' q = Some n) /\
  (lookup s q = None -> lookup s' q <> None ->
     lookup s' q = Some Dir /\ exists t, dir = (q ++ t)%list).
Proof.
  intros s dir name bytes k q s' Hq.
  destruct (store_prefix s dir name bytes k) as [P1 P2]. split; [auto|].
  intros H1 H2. destruct (P2 q Hq H1) as [K|[K1 K2]]; [contradiction|].
  split; [exact K1|]. apply prefixes_in in K2. apply K2.
Qed.
Print Assumptions C67_crash_leaves_the_rest.

(** After any history of stores into one results directory, each finished or cut off at any
    point, a result reads as the last store to its location left it: untouched if none got to
    writing it, the result stored if that store finished, and an unpickling error (never some
    other result) if it was cut off while writing. *)
Theorem C67_history : forall R pickle (unpickle : string -> option R) root s h l,
  faithful pickle unpickle -> cut_detected pickle unpickle -> usable root s ->
  let s' := run_events R pickle root s h in
  let here := load R unpickle s' (loc_dir root l) (l_name l) in
  match outcome R h l with
  | Untouched => here = load R unpickle s (loc_dir root l) (l_name l)
  | Holds r => here = Good r
  | Torn r m => (m < String.length (pickle r))%nat -> here = Bad BadPickle
  end.
Proof.
  intros R pickle unpickle root s h l Hf Hc Hu s' here.
  destruct (history_stands R pickle root h s Hu) as [U S]. specialize (S l).
  fold s' in U, S. unfold here, load, load_path.
  fold (loc_path root l). rewrite !read_usable by assumption. rewrite S. unfold stands.
  destruct (outcome R h l) as [|r|r m].
  - reflexivity.
  - now rewrite Hf.
  - intro Hm. unfold take. now rewrite Hc.
Qed.
Print Assumptions C67_history.

(** No store of such a history raises. *)
Theorem C67_stores_never_fail : forall R (pickle : R -> string) root s h e,
  usable root s ->
  store_error (run_events R pickle root s h) (loc_dir root (e_loc R e)) (l_name (e_loc R e))
    = None.
Proof.
  intros R pickle root s h e Hu. apply usable_no_error.
  apply (proj1 (history_stands R pickle root h s Hu)).
Qed.
Print Assumptions C67_stores_never_fail.

(** The three ways to be cut off are all there are: every number of steps of a store is one. *)
Theorem C67_reaches_are_all : forall s dir total k, (k <= total)%nat ->
  exists x, steps s dir total x = k.
Proof.
  intros s dir total k H. destruct (le_lt_dec k (List.length (mkdir_ops s dir))) as [L|L].
  - exists (InDirs k). cbn. lia.
  - exists (InWrite (k - List.length (mkdir_ops s dir) - 1)). cbn. lia.
Qed.
Print Assumptions C67_reaches_are_all.

(** * C68 *)

(** False for arbitrary directory contents: a file [007.pickle] makes the extractor look for
    [7.pickle] and, not finding it, drop the rest of the run without a word. *)
Definition odd_id : string := "2019-02-03.140509.000123__0000042".
Definition odd_fs : fs :=
  [(["r"], Dir); (["r"; "p"], Dir); (["r"; "p"; "a"], Dir); (["r"; "p"; "a"; odd_id], Dir);
   (["r"; "p"; "a"; odd_id; "007.pickle"], File (toy_pickle [true]));
   (["r"; "p"; "a"; odd_id; "8.pickle"], File (toy_pickle [false]))].

Theorem C68_grouped_refuted : exists s problem algo,
  tree s /\ lookup s ["r"; problem; algo] = Some Dir /\
  held toy_unpickle s ["r"; problem; algo] odd_id 8 = Some [false] /\
  In odd_id (each_run (children s ["r"; problem; algo])) /\
  extract (list bool) toy_unpickle s "r" problem algo = Good [].
Proof.
  exists odd_fs, "p", "a". split; [|split; [|split; [|split]]].
  - constructor.
    + intros q p n Hq Hne Hp. apply lookup_in in Hp. unfold odd_fs in Hp. cbn [In] in Hp.
      repeat destruct Hp as [Hp|Hp]; try contradiction; inversion Hp; subst p n; clear Hp;
        cbn [prefixes map In] in Hq;
        repeat destruct Hq as [Hq|Hq]; try contradiction; subst q; try congruence;
        vm_compute; reflexivity.
    + unfold odd_fs. cbn [map fst].
      repeat (constructor; [cbn [In]; intro K;
        repeat destruct K as [K|K]; try discriminate K; exact K|]). constructor.
  - reflexivity.
  - vm_compute. reflexivity.
  - vm_compute. now left.
  - vm_compute. reflexivity.
Qed.
Print Assumptions C68_grouped_refuted.

(** True when the numbers are written in the usual way and the pickles are complete, whatever
    else the directories hold: one entry per number present in some run, numbers strictly
    increasing, and each entry has the result of every run that holds that number, in run order
    with the run's position. *)
Theorem C68_grouped_partial : forall R (unpickle : string -> option R) s root problem algo,
  let base := [root; problem; algo] in
  let ids := each_run (children s base) in
  tree s -> lookup s base = Some Dir ->
  (forall id, In id ids -> lookup s (base ++ [id])%list = Some Dir /\
                           orderly unpickle s (base ++ [id])%list) ->
  exists groups, extract R unpickle s root problem algo = Good groups /\
    StronglySorted N.lt (map fst groups) /\
    (forall k, In k (map fst groups) <->
       exists id, In id ids /\ held unpickle s base id k <> None) /\
    (forall k e, In (k, e) groups ->
       map (fun x => (i_run R x, i_result R x)) e = entry unpickle s base ids k /\
       forall x, In x e -> i_name R x = str_of_N k).
Proof. exact extract_ok. Qed.
Print Assumptions C68_grouped_partial.

(** In particular after any history of finished stores under numbers (budgets, time slots) into
    a fresh results directory: the entries are those of the last results stored. *)
Theorem C68_after_runs : forall R pickle (unpickle : string -> option R) root h problem algo,
  faithful pickle unpickle -> Forall (regular R) h ->
  (exists e i, In e h /\ of_run R problem algo i e) ->
  exists ids groups,
    extract R unpickle (run_events R pickle root [] h) root problem algo = Good groups /\
    StronglySorted (fun x y => str_leb x y = true /\ x <> y) ids /\
    (forall i, In i ids <-> exists e, In e h /\ of_run R problem algo i e) /\
    StronglySorted N.lt (map fst groups) /\
    (forall k, In k (map fst groups) <->
      exists i, In i ids /\ last_stored R h problem algo i k <> None) /\
    (forall k e, In (k, e) groups ->
      map (fun x => (i_run R x, i_result R x)) e =
      flat_map (fun ix => match last_stored R h problem algo (snd ix) k with
                          | Some r => [(fst ix, r)] | None => [] end)
        (number_from 0 ids)).
Proof.
  intros R pickle unpickle root h problem algo Hc Hh He. now apply extract_after.
Qed.
Print Assumptions C68_after_runs.

(** One torn result (left by a crash) makes the extraction of the whole algorithm raise. *)
Theorem C68_torn_result_raises : exists h,
  extract (list bool) toy_unpickle (run_events (list bool) toy_pickle "r" [] h) "r" "p" "a"
    = Bad BadPickle /\
  exists e, In e h /\ e_reach (list bool) e = Finished.
Proof.
  set (l := fun n => {| l_problem := "p"; l_algo := "a"; l_id := odd_id; l_name := n |}).
  exists [{| e_loc := l "500"; e_result := [true]; e_reach := Finished |};
          {| e_loc := l "1000"; e_result := [true; false]; e_reach := InWrite 1 |}].
  split; [vm_compute; reflexivity|]. eexists. split; [now left|reflexivity].
Qed.
Print Assumptions C68_torn_result_raises.

(** * C69 *)

(** Every query of every sequence is answered as the metric itself would answer: computed the
    first time, from the cache afterwards, an error when the parameters differ from the ones
    cached.  The directories exist, the cache starts without entries for the metrics asked
    for, and result names have no dot. *)
Theorem C69_cache_transparent : forall V P F (eqP : P -> P -> bool) metric
    (pickle_m : V * P -> string) unpickle_m (fitness : path -> string -> F) s qs,
  (forall a b, eqP a b = true <-> a = b) -> faithful pickle_m unpickle_m ->
  (forall q, In q qs ->
     q_dir P q <> [] /\ (forall p, In p (prefixes (q_dir P q)) -> lookup s p = Some Dir) /\
     no_dot (q_name P q) /\
     lookup s (metric_path (q_dir P q) (q_name P q) (q_metric P q)) = None) ->
  let results := snd (ask_all V P F metric fitness eqP pickle_m unpickle_m s qs) in
  List.length results = List.length qs /\
  forall i q a computed, nth_error qs i = Some q -> nth_error results i = Some (a, computed) ->
    answers V P F metric fitness (firstn i qs) q a computed.
Proof.
  intros V P F eqP metric pm um fitness s qs He Hf H results.
  apply (ask_all_ok V P F eqP He metric pm um Hf fitness qs s []).
  intros q Hq. destruct (H q Hq) as (H1 & H2 & H3 & H4). split; [now repeat split|exact H4].
Qed.
Print Assumptions C69_cache_transparent.

Lemma nth_error_firstn_lt : forall (A : Type) (l : list A) i j, (i < j)%nat ->
  nth_error (firstn j l) i = nth_error l i.
Proof.
  induction l as [|x l IH]; intros i j H; destruct j as [|j]; try lia; cbn [firstn].
  - reflexivity.
  - destruct i as [|i]; [reflexivity|]. cbn [nth_error]. apply IH. lia.
Qed.

(** So a value returned is the metric's value, and a metric that does not raise is computed at
    most once per result and metric. *)
Theorem C69_right_and_once : forall V P F metric (fitness : path -> string -> F) qs results,
  List.length results = List.length qs ->
  (forall i q a computed, nth_error qs i = Some q ->
     nth_error results i = Some (a, computed) ->
     answers V P F metric fitness (firstn i qs) q a computed) ->
  (forall i q v computed, nth_error qs i = Some q ->
     nth_error results i = Some (Good v, computed) ->
     true_value V P F metric fitness q = Some v) /\
  (forall i j qi qj v a, (i < j)%nat -> nth_error qs i = Some qi -> nth_error qs j = Some qj ->
     same_key P qi qj -> nth_error results i = Some (Good v, true) ->
     nth_error results j <> Some (a, true)).
Proof.
  intros V P F metric fitness qs results Hlen H. split.
  - intros i q v c Hq Hr. specialize (H i q (Good v) c Hq Hr). inversion H; subst; assumption.
  - intros i j qi qj v a Hij Hi Hj Hk Hri Hrj.
    pose proof (H i qi _ _ Hi Hri) as Ai. pose proof (H j qj _ _ Hj Hrj) as Aj.
    assert (Tv : true_value V P F metric fitness qi = Some v) by (inversion Ai; auto).
    assert (Rm : remembered V P F metric fitness (firstn j qs) qj <> None).
    { unfold remembered.
      destruct (find _ (firstn j qs)) as [x|] eqn:Ef; [discriminate|].
      assert (Hin : In qi (firstn j qs)).
      { apply nth_error_In with (n := i). rewrite nth_error_firstn_lt by exact Hij. exact Hi. }
      pose proof (find_none _ _ Ef qi Hin) as K. cbn beta in K.
      rewrite (proj2 (same_keyb_iff P qi qj) Hk), Tv in K. discriminate. }
    inversion Aj; subst; congruence.
Qed.
Print Assumptions C69_right_and_once.

(** Queries never change what the extractor returns. *)
Theorem C69_queries_keep_results : forall V P F (eqP : P -> P -> bool) metric
    (pickle_m : V * P -> string) unpickle_m R (unpickle : string -> option R)
    s root p a i name m (f : F) ps problem algo,
  extract R unpickle
    (fst (fst (get_metric V P F eqP metric pickle_m unpickle_m s (run_path root p a i) name m
       f ps))) root problem algo =
  extract R unpickle s root problem algo.
Proof.
  intros. unfold get_metric.
  destruct (read s (metric_path (run_path root p a i) name m)) as [b|e] eqn:Er.
  - destruct (unpickle_m b) as [[v ps']|]; reflexivity.
  - destruct e; try reflexivity. destruct (metric m f ps) as [v|]; [|reflexivity].
    destruct (lookup s (run_path root p a i)) as [[|c]|]; try reflexivity. cbn [fst].
    assert (Ha : lookup s (metric_path (run_path root p a i) name m) = None).
    { unfold read in Er. destruct (existsb _ _); [discriminate|].
      destruct (lookup s _) as [[|c]|]; congruence. }
    rewrite write_absent by exact Ha. unfold metric_path, result_path.
    apply extract_added; [apply numbered_dotted|exact Ha].
Qed.
Print Assumptions C69_queries_keep_results.

(** * C109 *)

(** A metric follows its result: false.  The result of budget 8 is stored, its metric asked
    for, the result stored again with another population: the metric stays that of the old one. *)
Definition mt_pickle (x : list bool * unit) : string := toy_pickle (fst x).
Definition mt_unpickle (s : string) : option (list bool * unit) :=
  match toy_unpickle s with Some l => Some (l, tt) | None => None end.
Definition mt_metric (m : string) (f : list bool) (_ : unit) : option (list bool) := Some f.
Definition mt_get := get_metric (list bool) unit (list bool) (fun _ _ => true) mt_metric
  mt_pickle mt_unpickle.

Theorem C109_metric_follows_result_refuted : exists dir old new,
  old <> new /\
  let s1 := store (list bool) toy_pickle [] dir "8" old in
  let s2 := fst (fst (mt_get s1 dir "8" "extent" old tt)) in
  let s3 := store (list bool) toy_pickle s2 dir "8" new in
  load (list bool) toy_unpickle s3 dir "8" = Good new /\
  snd (fst (mt_get s3 dir "8" "extent" new tt)) = Good old.
Proof.
  exists ["r"; "p"; "a"; odd_id], [true], [false; false]. split; [discriminate|].
  vm_compute. split; reflexivity.
Qed.
Print Assumptions C109_metric_follows_result_refuted.

(** Nor does it survive a crash: a cache file cut off while being written makes that metric
    raise for ever, whatever is asked. *)
Theorem C109_torn_cache_stays : forall V P F (eqP : P -> P -> bool) metric
    (pickle_m : V * P -> string) unpickle_m s q m v ps f ps',
  cut_detected pickle_m unpickle_m ->
  well P s q -> (m < String.length (pickle_m (v, ps)))%nat ->
  let s' := apply_all s (firstn (S m) (write_ops
      (metric_path (q_dir P q) (q_name P q) (q_metric P q)) (pickle_m (v, ps)))) in
  get_metric V P F eqP metric pickle_m unpickle_m s' (q_dir P q) (q_name P q) (q_metric P q)
    f ps' = (s', Bad BadPickle, false).
Proof.
  intros V P F eqP metric pm um s q m v ps f ps' Hc W Hm s'.
  pose proof (written_at m s (metric_path (q_dir P q) (q_name P q) (q_metric P q))
    (pm (v, ps))) as [A1 A2]. fold s' in A1, A2.
  assert (W' : well P s' q).
  { destruct W as (W1 & W2 & W3). split; [exact W1|]. split; [|exact W3].
    intros p Hp. rewrite A2; [auto|]. intros ->.
    apply prefixes_in in Hp. destruct Hp as [_ (t & Ht)].
    apply (f_equal (@List.length string)) in Ht. unfold metric_path, result_path in Ht.
    rewrite !app_length in Ht. cbn in Ht. lia. }
  unfold get_metric. rewrite read_well by exact W'. rewrite A1.
  unfold take. now rewrite Hc.
Qed.
Print Assumptions C109_torn_cache_stays.

(** * Examples *)
Example C67_example_codec : faithful toy_pickle toy_unpickle /\ cut_detected toy_pickle toy_unpickle.
Proof. split; [apply toy_faithful|apply toy_cut]. Qed.

Example C67_example_usable : forall root, usable root [].
Proof. intro root. constructor; cbn; discriminate. Qed.

(** The first store finishes, the second to the same location is cut off while making
    directories, the third, elsewhere, while writing. *)
Example C67_example_history : exists h l l',
  outcome (list bool) h l = Holds [true] /\ outcome (list bool) h l' = Torn [false; true] 1 /\
  l <> l'.
Proof.
  set (l := {| l_problem := "p"; l_algo := "a"; l_id := odd_id; l_name := "500" |}).
  set (l' := {| l_problem := "p"; l_algo := "a"; l_id := odd_id; l_name := "1000" |}).
  exists [{| e_loc := l; e_result := [true]; e_reach := Finished |};
          {| e_loc := l; e_result := [false]; e_reach := InDirs 2 |};
          {| e_loc := l'; e_result := [false; true]; e_reach := InWrite 1 |}], l, l'.
  split; [vm_compute; reflexivity|]. split; [vm_compute; reflexivity|discriminate].
Qed.

(** Two runs of one algorithm; the second has no result for 1000; 500 sorts before 1000. *)
Definition other_id : string := "2019-02-03.140510.000000__0000001".
Definition ev (i n : string) (r : list bool) : event (list bool) :=
  {| e_loc := {| l_problem := "p"; l_algo := "a"; l_id := i; l_name := n |};
     e_result := r; e_reach := Finished |}.
Definition runs_ex : list (event (list bool)) :=
  [ev other_id "500" [true; true]; ev odd_id "500" [true]; ev odd_id "1000" [false]].

Example C68_example_regular : Forall (regular (list bool)) runs_ex.
Proof.
  repeat constructor; try (vm_compute; discriminate).
  - exists 500%N. reflexivity.
  - exists 500%N. reflexivity.
  - exists 1000%N. reflexivity.
Qed.

Example C68_example :
  match extract (list bool) toy_unpickle (run_events (list bool) toy_pickle "r" [] runs_ex)
          "r" "p" "a" with
  | Good g => map (fun e => (fst e, map (fun x => (i_run _ x, i_result _ x)) (snd e))) g
  | Bad _ => []
  end = [(500%N, [(0, [true]); (1, [true; true])]); (1000%N, [(0, [false])])].
Proof. vm_compute. reflexivity. Qed.

(** Three queries: the second is answered from the cache, the third is another metric. *)
Definition mq (m : string) : query unit :=
  {| q_dir := ["r"; "p"; "a"; odd_id]; q_name := "8"; q_metric := m; q_params := tt |}.

Example C69_example :
  let s := store (list bool) toy_pickle [] ["r"; "p"; "a"; odd_id] "8" [true] in
  let qs := [mq "extent"; mq "extent"; mq "spacing"] in
  (forall q, In q qs ->
     q_dir unit q <> [] /\
     (forall p, In p (prefixes (q_dir unit q)) -> lookup s p = Some Dir) /\
     no_dot (q_name unit q) /\
     lookup s (metric_path (q_dir unit q) (q_name unit q) (q_metric unit q)) = None) /\
  snd (ask_all (list bool) unit (list bool) mt_metric (fun _ _ => [true]) (fun _ _ => true)
         mt_pickle mt_unpickle s qs) =
    [(Good [true], true); (Good [true], false); (Good [true], true)].
Proof.
  cbv zeta. split; [|vm_compute; reflexivity].
  intros q Hq. assert (E : q = mq "extent" \/ q = mq "spacing") by (cbn in Hq; intuition).
  destruct E as [->| ->]; (split; [discriminate|]; split; [|split]).
  1, 4: intros p Hp; cbn in Hp; repeat destruct Hp as [Hp|Hp]; try contradiction; subst p;
        vm_compute; reflexivity.
  1, 3: intros x y E; cbn in E; destruct x as [|c [|d x]]; inversion E; subst; discriminate.
  1, 2: vm_compute; reflexivity.
Qed.

(** The cache file of the first query, cut off after three bytes. *)
Example C109_example :
  cut_detected mt_pickle mt_unpickle /\
  well unit (store (list bool) toy_pickle [] ["r"; "p"; "a"; odd_id] "8" [true]) (mq "extent") /\
  (1 < String.length (mt_pickle ([true; false], tt)))%nat.
Proof.
  split; [|split].
  - intros [l []] n Hn. unfold mt_unpickle, mt_pickle in *. cbn [fst] in *. rewrite (toy_cut l n Hn). reflexivity.
  - destruct C69_example as (H & _). destruct (H (mq "extent") (or_introl eq_refl)) as (A & B & C & _). split; [exact A|]. split; [exact B|exact C].
  - vm_compute. lia.
Qed.
