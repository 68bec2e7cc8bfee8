(** Theorems about the pools of the Pareto dominance indicator: C108. *)
Require Import String Ascii List Arith NArith Lia Bool Permutation Sorted.
From Verif Require Import PyStr PyStrFacts IdModel IdSpec IdProofs FsModel FsSpec FsProofs FsHist
  FsExtract FsRuns FsQuiet FsProps PdiModel.
Import ListNotations.
Open Scope string_scope.

(** What run number [i] of the algorithm in [algo] (numbered as the extractor numbers them)
    holds under [name]. *)
Definition of_number {R : Type} (unpickle : string -> option R) (s : fs) (algo : path)
  (name : string) (i : nat) : option R :=
  match nth_error (each_run (children s algo)) i with
  | Some id =>
      match lookup s (algo ++ [id; (name ++ ".pickle")%string])%list with
      | Some (File b) => unpickle b
      | _ => None
      end
  | None => None
  end.

(** The pool a result is compared with should hold, for every algorithm, the result of the run
    with the same number. *)
Definition paired {R : Type} (unpickle : string -> option R) (s : fs) (problem : path)
  (name : string) (i : nat) (p : list R) : Prop :=
  forall r, In r p <-> exists a, is_dir s (problem ++ [a])%list = true /\
    of_number unpickle s (problem ++ [a])%list name i = Some r.

(** False: the pool numbers the runs in the order in which the operating system lists the
    directory, the extractor in the order of their names.  Two finished runs, listed the other
    way round: the pool of run 0 does not even hold the result of run 0. *)
Definition swapped (s : fs) (p : path) : list string := rev (sort_by str_leb (children s p)).

Definition pdi_h : list (event (list bool)) :=
  [ev odd_id "500" [true]; ev other_id "500" [true; true]].

Theorem C108_pairing_refuted : exists h order r0,
  Forall (regular (list bool)) h /\
  let s := run_events (list bool) toy_pickle "r" [] h in
  (forall p, Permutation (order p) (children s p)) /\
  of_number toy_unpickle s ["r"; "p"; "a"] "500" 0 = Some r0 /\
  exists pl, pool (list bool) toy_unpickle order s ["r"; "p"] "500" 0 = Good pl /\
    ~ In r0 pl.
Proof.
  exists pdi_h, (swapped (run_events (list bool) toy_pickle "r" [] pdi_h)), [true].
  split.
  { repeat constructor; try (vm_compute; discriminate); exists 500%N; reflexivity. }
  cbv zeta. split; [|split].
  - intro p. unfold swapped. eapply perm_trans; [apply Permutation_sym, Permutation_rev|].
    apply Permutation_sym, sort_by_perm.
  - vm_compute. reflexivity.
  - exists [[true; true]]. split; [vm_compute; reflexivity|].
    intros [H|[]]. discriminate.
Qed.
Print Assumptions C108_pairing_refuted.

Section Partial.
  Variable R : Type.
  Variable unpickle : string -> option R.
  Variable s : fs.
  Hypothesis T : tree s.

  Notation order := (fun p => sort_by str_leb (children s p)).

  Definition complete_files (dir : path) : Prop :=
    forall n st k b, numbered n = Some (st, k) -> lookup s (dir ++ [n])%list = Some (File b) ->
      unpickle b <> None.

  Lemma load_path_tree : forall dir n, dir <> [] -> lookup s dir = Some Dir ->
    load_path R unpickle s (dir ++ [n])%list =
    match lookup s (dir ++ [n])%list with
    | None => Bad FileNotFound
    | Some Dir => Bad IsADirectory
    | Some (File b) => match unpickle b with Some r => Good r | None => Bad BadPickle end
    end.
  Proof.
    intros dir n Hd Hl. unfold load_path, read. rewrite removelast_last.
    destruct (existsb (is_file s) (prefixes dir)) eqn:E.
    - exfalso. apply existsb_exists in E. destruct E as (q & Hq & Ef). unfold is_file in Ef.
      destruct (list_eq_dec string_dec q dir) as [->|Hne]; [rewrite Hl in Ef; discriminate|].
      rewrite (tr_parents _ T _ _ _ Hq Hne Hl) in Ef. discriminate.
    - destruct (lookup s (dir ++ [n])%list) as [[|b]|]; reflexivity.
  Qed.

  Lemma files_ok : forall dir i, dir <> [] -> lookup s dir = Some Dir -> complete_files dir ->
    forall names, (forall n, In n names -> In n (children s dir)) ->
    exists l, preload_files R unpickle s dir i names = Good l /\
      forall st j r, In (st, j, r) l <->
        j = i /\ In (st ++ ".pickle")%string names /\ numbered (st ++ ".pickle") <> None /\
        exists b, lookup s (dir ++ [(st ++ ".pickle")%string])%list = Some (File b) /\
                  unpickle b = Some r.
  Proof.
    intros dir i Hd Hl Hc. induction names as [|n names IH]; intro Hn; cbn [preload_files].
    - exists []. split; [reflexivity|]. intros st j r. split; [intros []|].
      intros (_ & [] & _).
    - destruct (IH (fun m Hm => Hn m (or_intror Hm))) as (l & E & Hlx). clear IH.
      destruct (numbered n) as [[st0 k]|] eqn:En.
      2: { exists l. split; [exact E|]. intros st j r. rewrite Hlx. split.
           - intros (A & B & C & D). split; [exact A|]. split; [now right|auto].
           - intros (A & [B|B] & C & D); [congruence|]. auto. }
      pose proof (numbered_inv _ _ _ En) as [En1 En2].
      rewrite load_path_tree by assumption.
      pose proof (Hn n (or_introl eq_refl)) as Hin. apply children_in in Hin.
      destruct (lookup s (dir ++ [n])%list) as [[|b]|] eqn:Lk; [| |congruence].
      + exists l. split; [exact E|]. intros st j r. rewrite Hlx. split.
        * intros (A & B & C & D). split; [exact A|]. split; [now right|auto].
        * intros (A & [B|B] & C & D).
          -- exfalso. destruct D as (b & D & _). rewrite <- B in D. congruence.
          -- auto.
      + pose proof (Hc n st0 k b En Lk) as Hu. destruct (unpickle b) as [r0|] eqn:Eu; [|congruence].
        rewrite E. eexists. split; [reflexivity|]. intros st j r. cbn [In]. rewrite Hlx. split.
        * intros [H|(A & B & C & D)].
          -- inversion H; subst st j r. rewrite <- En1. split; [reflexivity|].
             split; [now left|]. split; [congruence|]. exists b. auto.
          -- split; [exact A|]. split; [now right|auto].
        * intros (A & [B|B] & C & D).
          -- left. destruct D as (b' & D1 & D2). rewrite <- B, Lk in D1.
             inversion D1; subst b'. rewrite Eu in D2. inversion D2; subst r0.
             rewrite En1 in B. apply app_inj_r in B. congruence.
          -- right. auto.
  Qed.

  Lemma runs_ok : forall algo, algo <> [] ->
    forall runs i,
    (forall run, In run runs -> lookup s (algo ++ [run])%list = Some Dir /\
                                complete_files (algo ++ [run])%list) ->
    exists l, preload_runs R unpickle order s algo i runs = Good l /\
      forall st j r, In (st, j, r) l <->
        (i <= j)%nat /\ numbered (st ++ ".pickle") <> None /\
        exists run b, nth_error runs (j - i) = Some run /\
          lookup s (algo ++ [run; (st ++ ".pickle")%string])%list = Some (File b) /\
          unpickle b = Some r.
  Proof.
    intros algo Ha. induction runs as [|run runs IH]; intros i H; cbn [preload_runs].
    - exists []. split; [reflexivity|]. intros st j r. split; [intros []|].
      intros (_ & _ & run & b & K & _). destruct (j - i)%nat; discriminate.
    - destruct (H run (or_introl eq_refl)) as [H1 H2].
      assert (Hd : (algo ++ [run])%list <> []) by (intro E; apply app_eq_nil in E; destruct E; discriminate).
      destruct (files_ok (algo ++ [run])%list i Hd H1 H2
        (sort_by str_leb (children s (algo ++ [run])%list))) as (l & E & Hx).
      { intros n Hn. exact (proj1 (sort_by_in str_leb _ _) Hn). }
      destruct (IH (S i) (fun x Hi => H x (or_intror Hi))) as (l' & E' & Hx').
      exists (l ++ l')%list. rewrite E, E'. split; [reflexivity|].
      intros st j r. rewrite in_app_iff, Hx, Hx'. split.
      + intros [(-> & A & B & b & C & D)|(A & B & run' & b & C & D & F)].
        * split; [lia|]. split; [exact B|]. exists run, b. rewrite Nat.sub_diag.
          rewrite <- app_assoc in C. auto.
        * split; [lia|]. split; [exact B|]. exists run', b.
          replace (j - i)%nat with (S (j - S i)) by lia. auto.
      + intros (A & B & run' & b & C & D & F).
        destruct (Nat.eq_dec j i) as [->|Hne].
        * left. rewrite Nat.sub_diag in C. cbn in C. inversion C; subst run'.
          split; [reflexivity|]. split; [|split; [exact B|]].
          -- apply sort_by_in. apply children_in. rewrite <- app_assoc. cbn [app].
             rewrite D. discriminate.
          -- exists b. rewrite <- app_assoc. auto.
        * right. split; [lia|]. split; [exact B|]. exists run', b.
          replace (j - i)%nat with (S (j - S i)) in C by lia. auto.
  Qed.

  (** Every directory of an algorithm is a recognised run and the other way round. *)
  Definition only_runs (algo : path) : Prop :=
    forall n, In n (children s algo) ->
      (lookup s (algo ++ [n])%list = Some Dir <-> parse_id n <> None).

  Lemma runs_are_ids : forall algo, only_runs algo ->
    filter (fun run => is_dir s (algo ++ [run])%list) (order algo) = each_run (children s algo).
  Proof.
    intros algo H. unfold each_run.
    assert (G : forall l, (forall n, In n l -> In n (children s algo)) ->
      filter (fun run => is_dir s (algo ++ [run])%list) l =
      flat_map (fun name => match parse_id name with
                            | Some (d, r) => [id_of d r] | None => [] end) l).
    { induction l as [|n l IH]; intro Hl; [reflexivity|]. cbn [filter flat_map].
      rewrite IH by (intros; apply Hl; now right).
      specialize (H n (Hl n (or_introl eq_refl))). unfold is_dir.
      destruct (parse_id n) as [[d r]|] eqn:E.
      - rewrite (proj1 (parse_id_rebuild _ _ _ E)).
        rewrite (proj2 H) by discriminate. reflexivity.
      - destruct (lookup s (algo ++ [n])%list) as [[|b]|]; try reflexivity.
        exfalso. now apply (proj1 H). }
    apply G. intros n Hn. exact (proj1 (sort_by_in str_leb _ _) Hn).
  Qed.

  Lemma algos_ok : forall problem,
    (forall a, is_dir s (problem ++ [a])%list = true ->
       only_runs (problem ++ [a])%list /\
       forall run, In run (each_run (children s (problem ++ [a])%list)) ->
         complete_files (problem ++ [a; run])%list) ->
    forall algos, exists l, preload_algos R unpickle order s problem algos = Good l /\
      forall st j r, In (st, j, r) l <->
        numbered (st ++ ".pickle") <> None /\
        exists a, In a algos /\ is_dir s (problem ++ [a])%list = true /\
          of_number unpickle s (problem ++ [a])%list st j = Some r.
  Proof.
    intros problem H. induction algos as [|a algos IH]; cbn [preload_algos].
    - exists []. split; [reflexivity|]. intros st j r. split; [intros []|].
      intros (_ & a & [] & _).
    - destruct IH as (l' & E' & Hx').
      destruct (is_dir s (problem ++ [a])%list) eqn:Ed.
      2: { exists l'. split; [exact E'|]. intros st j r. rewrite Hx'. split.
           - intros (A & a' & B & C). split; [exact A|]. exists a'. split; [now right|exact C].
           - intros (A & a' & [B|B] & C & D); [congruence|]. split; [exact A|]. exists a'. auto. }
      destruct (H a Ed) as [H1 H2]. rewrite runs_are_ids by exact H1.
      assert (Hne : (problem ++ [a])%list <> [])
        by (intro E; apply app_eq_nil in E; destruct E; discriminate).
      destruct (runs_ok (problem ++ [a])%list Hne
        (each_run (children s (problem ++ [a])%list)) 0) as (l & E & Hx).
      { intros run Hr. pose proof (proj1 (each_run_in _ _) Hr) as [Hr1 Hr2]. split.
        - now apply (H1 run Hr1).
        - rewrite <- app_assoc. now apply H2. }
      rewrite E, E'. eexists. split; [reflexivity|].
      intros st j r. rewrite in_app_iff, Hx, Hx'. unfold of_number. rewrite Nat.sub_0_r. split.
      + intros [(_ & A & run & b & B & C & D)|(A & a' & B & C & D)].
        * split; [exact A|]. exists a. split; [now left|]. split; [exact Ed|]. now rewrite B, C.
        * split; [exact A|]. exists a'. split; [now right|]. auto.
      + intros (A & a' & [B|B] & C & D).
        * subst a'. left. split; [lia|]. split; [exact A|].
          destruct (nth_error (each_run (children s (problem ++ [a])%list)) j) as [run|] eqn:En;
            [|discriminate].
          destruct (lookup s ((problem ++ [a]) ++ [run; (st ++ ".pickle")%string])%list)
            as [[|b]|] eqn:El; try discriminate.
          exists run, b. auto.
        * right. split; [exact A|]. exists a'. auto.
  Qed.
End Partial.

(** True when directories happen to be listed in the order of their names, hold no other
    directories than runs, and all results are complete. *)
Theorem C108_pairing_partial : forall R (unpickle : string -> option R) s problem k i,
  tree s ->
  (forall a, is_dir s (problem ++ [a])%list = true ->
     only_runs s (problem ++ [a])%list /\
     forall run, In run (each_run (children s (problem ++ [a])%list)) ->
       complete_files R unpickle s (problem ++ [a; run])%list) ->
  exists pl,
    pool R unpickle (fun p => sort_by str_leb (children s p)) s problem (str_of_N k) i = Good pl /\
    paired unpickle s problem (str_of_N k) i pl.
Proof.
  intros R unpickle s problem k i T H. unfold pool.
  destruct (algos_ok R unpickle s T problem H (sort_by str_leb (children s problem)))
    as (l & E & Hx).
  rewrite E. eexists. split; [reflexivity|]. intro r. rewrite in_map_iff. split.
  - intros ([[st j] r'] & Er & Hf). cbn in Er. subst r'. apply filter_In in Hf.
    destruct Hf as [Hf Hb]. cbn [fst snd] in Hb. apply andb_true_iff in Hb.
    destruct Hb as [B1 B2]. apply String.eqb_eq in B1. apply Nat.eqb_eq in B2. subst st j.
    apply Hx in Hf. destruct Hf as (_ & a & _ & A & B). exists a. auto.
  - intros (a & A & B). exists (str_of_N k, i, r). split; [reflexivity|].
    apply filter_In. cbn [fst snd]. rewrite String.eqb_refl, Nat.eqb_refl. split; [|reflexivity].
    apply Hx. split; [rewrite numbered_str; discriminate|]. exists a. split; [|auto].
    apply sort_by_in. apply children_in. unfold is_dir in A.
    destruct (lookup s (problem ++ [a])%list); [discriminate|discriminate A].
Qed.
Print Assumptions C108_pairing_partial.

(** The two runs of the refutation, listed by name. *)
Example C108_example :
  let s := run_events (list bool) toy_pickle "r" [] pdi_h in
  tree s /\
  (forall a, is_dir s (["r"; "p"] ++ [a])%list = true ->
     only_runs s (["r"; "p"] ++ [a])%list /\
     forall run, In run (each_run (children s (["r"; "p"] ++ [a])%list)) ->
       complete_files (list bool) toy_unpickle s (["r"; "p"] ++ [a; run])%list) /\
  pool (list bool) toy_unpickle (fun p => sort_by str_leb (children s p)) s ["r"; "p"] "500" 0
    = Good [[true]].
Proof.
  assert (Hh : Forall (regular (list bool)) pdi_h)
    by (repeat constructor; try (vm_compute; discriminate); exists 500%N; reflexivity).
  pose proof (written_run (list bool) toy_pickle "r" pdi_h Hh) as W.
  cbv zeta. set (s := run_events (list bool) toy_pickle "r" [] pdi_h) in *.
  split; [apply (wr_tree _ _ _ _ _ W)|]. split; [|vm_compute; reflexivity].
  intros a Ha. cbn [app] in *. split.
  - intros n Hn. apply children_in in Hn. cbn [app] in *. split.
    + intro Hd. apply (wr_dirs _ _ _ _ _ W "p" a n) in Hd.
      destruct Hd as (e & He & _ & _ & <-). rewrite Forall_forall in Hh. apply (Hh e He).
    + intros _. destruct (lookup s ["r"; "p"; a; n]) as [[|b]|] eqn:E; [reflexivity| |congruence].
      destruct (wr_files _ _ _ _ _ W _ _ E) as (l & k & r & K & _).
      unfold loc_path, result_path, loc_dir, run_path in K. discriminate.
  - intros run _ n st k b Hn Hb. destruct (wr_files _ _ _ _ _ W _ _ Hb) as (l & j & r & _ & _ & ->).
    rewrite toy_faithful. discriminate.
Qed.
