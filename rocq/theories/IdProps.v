(** Theorems about simulation ids: C66, C104, C105. *)
Require Import String Ascii List Arith NArith Lia Bool Permutation Sorted.
From Verif Require Import PyStr PyStrFacts RunConfModel RunConfProofs ConfProps
  IdModel IdSpec IdProofs.
Import ListNotations.
Open Scope string_scope.

(** * C66 *)

(** The number written into the id of run [n]. *)
Lemma run_number : forall n rnd, random_id rnd -> (n <= 9999999)%N ->
  ((if (n =? 0)%N then rnd else n) < 10000000)%N.
Proof. unfold random_id. intros n rnd H1 H2. destruct (N.eqb_spec n 0); lia. Qed.

(** The id of any run numbered 1 to 9999999 is recognised; the date it holds and the number it
    holds are those of the run, and the extractor looks in the directory of that very id. *)
Theorem C66_id_recognised : forall n rnd d, (1 <= n <= 9999999)%N ->
  exists run_date run_id,
    parse_id (get_simulation_id n rnd d) = Some (run_date, run_id) /\
    run_date = strftime d /\ int_of_str run_id = Some n /\
    id_of run_date run_id = get_simulation_id n rnd d.
Proof.
  intros n rnd d H. unfold get_simulation_id.
  destruct (N.eqb_spec n 0) as [E|E]; [lia|].
  pose proof (id_parses d n ltac:(lia)) as P. exists (strftime d), (fixed 7 n).
  split; [exact P|]. split; [reflexivity|].
  split; [apply fixed_value; [cbn; lia|lia]|apply (parse_id_rebuild _ _ _ P)].
Qed.
Print Assumptions C66_id_recognised.

(** Run 0, whose number is drawn at random, is recognised too. *)
Theorem C66_first_run_recognised : forall rnd d, random_id rnd ->
  exists run_date run_id,
    parse_id (get_simulation_id 0 rnd d) = Some (run_date, run_id) /\
    run_date = strftime d /\ int_of_str run_id = Some rnd /\
    id_of run_date run_id = get_simulation_id 0 rnd d.
Proof.
  intros rnd d H. unfold random_id in H. cbn [get_simulation_id].
  pose proof (C66_id_recognised rnd rnd d ltac:(lia)) as K. unfold get_simulation_id in *.
  destruct (N.eqb_spec rnd 0) as [E|E]; [lia|]. exact K.
Qed.
Print Assumptions C66_first_run_recognised.

(** Different (date, run) pairs have different ids. *)
Theorem C66_ids_distinct : forall n n' rnd rnd' d d',
  (1 <= n <= 9999999)%N -> (1 <= n' <= 9999999)%N -> clock_date d -> clock_date d' ->
  get_simulation_id n rnd d = get_simulation_id n' rnd' d' ->
  fields d = fields d' /\ n = n'.
Proof.
  intros n n' rnd rnd' d d' Hn Hn' Hd Hd' E. unfold get_simulation_id in E.
  destruct (N.eqb_spec n 0), (N.eqb_spec n' 0); try lia.
  apply id_inj; auto; lia.
Qed.
Print Assumptions C66_ids_distinct.

(** Whatever else the directory holds, the extractor yields exactly the recognised names, each
    as often as it is listed, in string order. *)
Theorem C66_found_again : forall listing,
  Permutation (each_run listing)
    (filter (fun name => if parse_id name then true else false) listing) /\
  StronglySorted (fun a b => str_leb a b = true) (each_run listing).
Proof.
  intro listing.
  assert (E : forall l, flat_map (fun name =>
      match parse_id name with Some (d, r) => [id_of d r] | None => [] end) l
    = filter (fun name => if parse_id name then true else false) l).
  { induction l as [|x l IH]; [reflexivity|]. cbn [flat_map filter]. rewrite IH.
    destruct (parse_id x) as [[d r]|] eqn:P; [|reflexivity].
    now rewrite (proj1 (parse_id_rebuild _ _ _ P)). }
  unfold each_run. rewrite E. split.
  - assert (F : forall (f : string -> bool) l l', Permutation l l' ->
      Permutation (filter f l) (filter f l')).
    { intros f l l' H. induction H as [|x l l' H IH|x y l|l1 l2 l3 H1 IH1 H2 IH2]; cbn.
      - constructor.
      - destruct (f x); auto.
      - destruct (f x), (f y); auto. constructor.
      - eapply Permutation_trans; eauto. }
    apply F. apply Permutation_sym. apply sort_by_perm.
  - pose proof (sort_by_sorted str_leb str_leb_total str_leb_trans listing) as S.
    induction S as [|x l S IH Hx]; cbn [filter]; [constructor|].
    destruct (parse_id x); [|exact IH]. constructor; [exact IH|].
    apply Forall_forall. intros y Hy. apply filter_In in Hy.
    rewrite Forall_forall in Hx. apply Hx. apply Hy.
Qed.
Print Assumptions C66_found_again.

(** Beyond 9999999 the run is written but never found. *)
Theorem C66_longer_ids_ignored : forall n rnd d listing, (10000000 <= n)%N ->
  ~ In (get_simulation_id n rnd d) (each_run listing).
Proof.
  intros n rnd d listing H Hin.
  apply (Permutation_in _ (proj1 (C66_found_again listing))) in Hin.
  apply filter_In in Hin. destruct Hin as [_ Hin]. unfold get_simulation_id in Hin.
  destruct (N.eqb_spec n 0) as [E|E]; [lia|].
  now rewrite id_too_long in Hin by assumption.
Qed.
Print Assumptions C66_longer_ids_ignored.

(** * C104 *)

(** A job with the moment its id was made and the random number drawn for it. *)
Definition job_path (results_dir : string) (j : case * (date * N)) : list string :=
  run_path results_dir (c_problem (fst j)) (c_algo (fst j))
    (get_simulation_id (N.of_nat (c_run (fst j))) (snd (snd j)) (fst (snd j))).

(** However the clock runs and whatever is drawn, the jobs of one invocation write to pairwise
    different directories, as long as at most 1000000 repetitions are asked for. *)
Theorem C104_run_directories_distinct : forall a results_dir jobs,
  Permutation (map fst jobs) (create_simulation a) ->
  (forall j, In j jobs -> clock_date (fst (snd j)) /\ random_id (snd (snd j))) ->
  (a_N a <= 1000000)%N ->
  NoDup (map (job_path results_dir) jobs).
Proof.
  intros a dir jobs Hp Hj HN. destruct (nodup_parse a) as [N1 N2].
  pose proof (nodup_create a N1 N2) as Nd.
  assert (Hr : forall j, In j jobs -> (N.of_nat (c_run (fst j)) < a_N a)%N).
  { intros j Hin. assert (In (fst j) (create_simulation a)) as K.
    { eapply Permutation_in; [exact Hp|]. now apply in_map. }
    apply in_create in K. apply K. }
  assert (Nf : NoDup (map fst jobs)).
  { eapply Permutation_NoDup; [apply Permutation_sym; exact Hp|exact Nd]. }
  clear Hp Nd N1 N2. induction jobs as [|j jobs IH]; cbn; [constructor|].
  cbn in Nf. inversion Nf as [|x l Hn Hd]; subst.
  constructor; [|apply IH; [intros; apply Hj; now right|intros; apply Hr; now right|exact Hd]].
  intro Hin. apply in_map_iff in Hin. destruct Hin as (j' & E & Hin').
  apply Hn. apply in_map_iff. exists j'. split; [|exact Hin'].
  destruct (Hj j (or_introl eq_refl)) as [D1 R1].
  destruct (Hj j' (or_intror Hin')) as [D2 R2].
  pose proof (Hr j (or_introl eq_refl)) as B1. pose proof (Hr j' (or_intror Hin')) as B2.
  destruct j as [[p al r] [d rn]], j' as [[p' al' r'] [d' rn']].
  cbn [fst snd c_problem c_algo c_run] in *.
  unfold job_path, run_path, get_simulation_id in E. cbn [fst snd c_problem c_algo c_run] in E.
  pose proof (f_equal (fun l => nth 1 l "") E) as E1.
  pose proof (f_equal (fun l => nth 2 l "") E) as E2.
  pose proof (f_equal (fun l => nth 3 l "") E) as E3.
  clear E. cbn [nth] in E1, E2, E3. subst p' al'. symmetry in E3.
  apply id_inj in E3; auto;
    [|apply run_number; [assumption|lia]|apply run_number; [assumption|lia]].
  destruct E3 as [_ E3]. unfold random_id in *.
  assert (r = r'); [|now subst].
  destruct (N.eqb_spec (N.of_nat r) 0), (N.eqb_spec (N.of_nat r') 0); lia.
Qed.
Print Assumptions C104_run_directories_distinct.

(** * C105 *)

(** Sorting ids as strings sorts the runs by date and, at equal dates, by number. *)
Theorem C105_id_order_is_time_order : forall n n' rnd rnd' d d',
  (1 <= n <= 9999999)%N -> (1 <= n' <= 9999999)%N -> clock_date d -> clock_date d' ->
  str_leb (get_simulation_id n rnd d) (get_simulation_id n' rnd' d') = true <->
  earlier d n d' n' \/ (fields d = fields d' /\ n = n').
Proof.
  intros n n' rnd rnd' d d' Hn Hn' Hd Hd'. unfold get_simulation_id.
  destruct (N.eqb_spec n 0), (N.eqb_spec n' 0); try lia.
  rewrite !id_fixed by lia. apply id_leb; auto; lia.
Qed.
Print Assumptions C105_id_order_is_time_order.

(** * Examples *)
Definition d_ex : date := {| d_year := 2019; d_month := 2; d_day := 3; d_hour := 14;
  d_minute := 5; d_second := 9; d_micro := 123 |}.

Example C66_example_date : clock_date d_ex.
Proof. constructor; cbn; lia. Qed.

Example C66_example : get_simulation_id 42 0 d_ex = "2019-02-03.140509.000123__0000042".
Proof. vm_compute. reflexivity. Qed.

Example C66_example_listing :
  each_run ["x"; "2019-02-03.140509.000123__0000042"; "2019-02-03.140509.000123__00000042";
    "2019-02-03.140508.000123__1234567"] =
  ["2019-02-03.140508.000123__1234567"; "2019-02-03.140509.000123__0000042"].
Proof. vm_compute. reflexivity. Qed.

(** Two repetitions of one algorithm on one problem, made in the same microsecond. *)
Example C104_example : exists a jobs,
  Permutation (map fst jobs) (create_simulation a) /\
  (forall j, In j jobs -> clock_date (fst (snd j)) /\ random_id (snd (snd j))) /\
  (a_N a <= 1000000)%N /\ List.length jobs = 2.
Proof.
  set (a := {| a_problem := Some "zdt1"; a_algo := Some "NSGAII"; a_N := 2%N;
               a_budget := "500"; a_renice := None; a_dir := None |}).
  exists a, (map (fun c => (c, (d_ex, 1234567%N))) (create_simulation a)).
  split; [|split; [|split]].
  - rewrite map_map. cbn [fst]. rewrite map_id. apply Permutation_refl.
  - intros j H. apply in_map_iff in H. destruct H as (c & <- & _). cbn [fst snd].
    split; [apply C66_example_date|unfold random_id; lia].
  - cbn; lia.
  - vm_compute. reflexivity.
Qed.

Example C105_example : earlier d_ex 3 d_ex 4.
Proof. unfold earlier. cbn. repeat (apply before_there). apply before_here. lia. Qed.
