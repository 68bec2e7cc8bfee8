(** C64, C65, C96, C97: configurations and the job list. *)
Require Import String Ascii List Arith NArith QArith Lia Bool Permutation Sorting.Sorted.
From Verif Require Import PyStr PyStrFacts ConfModel ConfSpec ConfProofs RunConfModel
  RunConfSpec RunConfProofs ConfNest.
Import ListNotations.
Open Scope string_scope.

Lemma plain_lacks : forall l, Forall plain_name l -> Forall (lacks "+"%char) l.
Proof.
  intros l H. eapply Forall_impl; [|exact H]. intro s; clear.
  induction s as [|x s IH]; cbn; tauto.
Qed.

Lemma prepare_cases : forall V (w : world V) hooks problem pm names,
  proper w hooks pm -> problem <> "" -> w_problem w problem = Some pm ->
  names <> [] -> Forall plain_name names ->
  match prepare w (String.concat "+" names) problem with
  | Ok r => exists p, r = Some p /\ configured w hooks problem pm names p /\
              supported w names
  | _ => ~ supported w names
  end.
Proof.
  intros V w hooks problem pm names P Hp Hm Hne Hpl.
  unfold prepare.
  change (String.concat "+" names) with (join (String "+"%char "") names).
  rewrite split_join by (auto; now apply plain_lacks).
  pose proof (prepare_from_ok w hooks pm P problem names [] None Hp Hm
                (or_introl (conj eq_refl eq_refl))) as H.
  rewrite app_nil_r in H.
  destruct (prepare_from w problem names (List.length names) None) as [r| |e].
  - destruct H as [[E _]|(d & -> & H1 & H2 & H3)]; [contradiction|].
    exists d. split; [reflexivity|]. split; [exact H1|]. split; [exact H2|].
    intros before a d' after E. specialize (H3 before a (d' :: after) E).
    rewrite app_nil_r in H3. exact H3.
  - destruct H as (b & a & t & E & H1 & H2). rewrite app_nil_r in H1.
    intros [_ S]. destruct t as [|d t]; [discriminate|].
    specialize (S b a d t E). cbn [adapted] in H1. congruence.
  - destruct H as (a & H1 & H2). intros [S _]. specialize (S a H1). congruence.
Qed.

(** C64: in the configuration handed to a driver, and to each sub-driver below it, every
    option has the value of the last layer that defines it; a population is drawn only if no
    layer supplies one; nothing else is in it. *)
Theorem C64_last_layer_wins : forall V (w : world V) hooks problem pm names p,
  proper w hooks pm -> problem <> "" -> w_problem w problem = Some pm ->
  names <> [] -> Forall plain_name names ->
  prepare w (String.concat "+" names) problem = Ok (Some p) ->
  configured w hooks problem pm names p.
Proof.
  intros V w hooks problem pm names p P Hp Hm Hne Hpl H.
  pose proof (prepare_cases V w hooks problem pm names P Hp Hm Hne Hpl) as C.
  rewrite H in C. destruct C as (p' & E & C & _). inversion E; subst. exact C.
Qed.
Print Assumptions C64_last_layer_wins.

(** C64: it can be prepared exactly when the classes and the adapters between neighbours
    exist. *)
Theorem C64_prepares_iff_supported : forall V (w : world V) hooks problem pm names,
  proper w hooks pm -> problem <> "" -> w_problem w problem = Some pm ->
  names <> [] -> Forall plain_name names ->
  ((exists p, prepare w (String.concat "+" names) problem = Ok (Some p)) <->
   supported w names).
Proof.
  intros V w hooks problem pm names P Hp Hm Hne Hpl.
  pose proof (prepare_cases V w hooks problem pm names P Hp Hm Hne Hpl) as C.
  destruct (prepare w (String.concat "+" names) problem) as [r| |e].
  - destruct C as (p & -> & _ & S). split; [intros _; exact S|intros _; now exists p].
  - split; [intros [p E]; discriminate|contradiction].
  - split; [intros [p E]; discriminate|contradiction].
Qed.
Print Assumptions C64_prepares_iff_supported.

(** The tables of the repository, on an ordinary problem: HGS over NSGA-II. *)
Definition pm0 : problem_mod cval :=
  {| pm_dims := VSeq [VSeq [VNum 0; VNum 1]; VSeq [VNum 0; VNum 1]];
     pm_fitnesses := VSeq [VFun 0; VFun 1];
     pm_extra := VSeq [VSeq [VNum 0; VNum 1]] |}.

Definition world0 : world cval := repo (fun _ => pm0) (fun subs _ => VNum 7).

Example C64_example_hypotheses :
  proper world0 repo_hooks pm0 /\ w_problem world0 "ZDT1" = Some pm0 /\
  Forall plain_name ["HGS"; "NSGAII"] /\ supported world0 ["HGS"; "NSGAII"].
Proof.
  split; [apply repo_proper; split; eexists; eexists; reflexivity|].
  split; [reflexivity|]. split.
  - repeat constructor; discriminate.
  - split.
    + intros a [<-|[<-|[]]]; reflexivity.
    + intros before a d after E. destruct before as [|x [|y before]]; inversion E; subst.
      * reflexivity.
      * destruct before; discriminate.
Qed.

Example C64_example_prepares :
  exists inner c, prepare world0 "HGS+NSGAII" "ZDT1" = Ok (Some (Partial "HGS" c)) /\
    get "driver" c = Some (Partial "NSGAII" inner) /\
    get "hgs_type" c = Some (Plain (VStr "classic")) /\
    get "mutation_rates" c = Some (nums [1#2; 1#2; 1#2]) /\
    get "population" c = Some (num 7) /\
    get "kappa" c = None /\
    get "mutation_rate" inner = Some (num (1#2)).
Proof. do 2 eexists. split; [vm_compute; reflexivity|]. repeat split. Qed.

(** Layers that disagree: the algorithm's base entry, a custom entry and two hooks all set
    [x]; the population comes from a layer. *)
Definition world1 : world Q :=
  {| w_algo_base := fun k => match k with
       | KName "A" => Some [("x", Plain 1); ("y", Plain 1); ("population", Plain 5)]
       | KSubs "A" ["B"] => Some [("y", Plain 2); ("z", Plain 2)]
       | _ => None end;
     w_cust_base := fun k => match k with
       | ["A"; "B"; "P"] => Some [("z", Plain 3); ("x", Plain 3)]
       | _ => None end;
     w_hooks := fun name =>
       if String.eqb name "init_alg___A" then
         Some (fun pm c => HDone (update c [("x", Plain 4)]))
       else if String.eqb name "init_alg___A__B____P" then
         Some (fun pm c => HDone (update c [("x", Plain 9)]))
       else None;
     w_class := fun a => true;
     w_problem := fun p => Some {| pm_dims := 0; pm_fitnesses := 0; pm_extra := 0 |};
     w_adapter := fun m c => true;
     w_population := fun _ _ => 77 |}.

Example C64_example_disagree :
  exists inner, prepare world1 "A+B" "P" = Ok (Some (Partial "A"
    [("dims", Plain 0); ("fitnesses", Plain 0); ("driver", Partial "B" inner);
     ("driver_message_adapter_factory", Adapter "B" "BAMessageAdapter");
     ("x", Plain 9); ("y", Plain 2); ("population", Plain 5); ("z", Plain 3)])) /\
  get "population" inner = Some (Plain 77).
Proof. eexists. split; [vm_compute; reflexivity|reflexivity]. Qed.

(** C97: every algorithm that [list] offers can be prepared for every listed problem (with at
    least one dimension and one front point), and its constructor, as well as the call that
    creates its sub-drivers, gets all the parameters it needs and none it does not know. *)
Theorem C97_listed_algorithms_construct : forall mods pops problem algo,
  In problem problems -> In algo algorithms -> ordinary (mods problem) ->
  exists p, prepare (repo mods pops) algo problem = Ok (Some p) /\
            constructible sigs calls [] p.
Proof. exact listed_ok. Qed.
Print Assumptions C97_listed_algorithms_construct.

Example C97_example : List.length algorithms = 32%nat /\ In "DHGS+SMSEMOA" algorithms /\
  In "NSLS" algorithms /\ ordinary pm0.
Proof.
  split; [reflexivity|]. split; [apply str_in_iff; reflexivity|].
  split; [apply str_in_iff; reflexivity|]. split; do 2 eexists; reflexivity.
Qed.

(** A pair without adapter is refused as not viable: HGS below IMGA. *)
Example C97_not_offered : prepare world0 "IMGA+HGS+SPEA2" "ZDT1" = NotViable.
Proof. vm_compute. reflexivity. Qed.

(** C134 - which compositions can be prepared at all: one algorithm by itself, or one of the eight
    plain algorithms below IMGA, HGS or DHGS.  Anything deeper, or another pair, is refused. *)
Theorem C134_two_levels_at_most : forall mods pops problem names,
  In problem problems -> ordinary (mods problem) -> names <> [] -> Forall plain_name names ->
  ((exists p, prepare (repo mods pops) (String.concat "+" names) problem = Ok (Some p)) <->
   (exists a, names = [a] /\ In a ["SPEA2"; "IBEA"; "NSGAII"; "OMOPSO"; "NSGAIII"; "JGBL"; "SMSEMOA"; "NSLS"; "IMGA"; "HGS"; "BOGO"; "DHGS"]) \/
   (exists a d, names = [a; d] /\ In a ["IMGA"; "HGS"; "DHGS"] /\
      In d ["SPEA2"; "IBEA"; "NSGAII"; "OMOPSO"; "NSGAIII"; "JGBL"; "SMSEMOA"; "NSLS"])).
Proof.
  intros mods pops problem names Hp Ho Hne Hpl.
  rewrite (C64_prepares_iff_supported cval (repo mods pops) repo_hooks problem (mods problem) names (repo_proper mods pops _ Ho)); auto.
  - exact (supported_iff mods pops names Hne).
  - intros ->. apply str_in_iff in Hp. discriminate.
  - cbn [repo w_problem]. apply str_in_iff in Hp. now rewrite Hp.
Qed.
Print Assumptions C134_two_levels_at_most.

Example C134_example : Forall plain_name ["IMGA"; "HGS"; "SPEA2"] /\ ordinary pm0 /\ In "UF7" problems /\
  ~ exists p, prepare world0 "IMGA+HGS+SPEA2" "UF7" = Ok (Some p).
Proof.
  split; [repeat constructor; discriminate|]. split; [split; do 2 eexists; reflexivity|]. split; [apply str_in_iff; reflexivity|].
  intros [p E]. vm_compute in E. discriminate.
Qed.

(** C135 - every driver of a listed algorithm, at each level, gets operators fitted to the problem. *)
Theorem C135_operators_fit_the_problem : forall mods pops problem algo d ds p ps v a c,
  In problem problems -> In algo algorithms ->
  pm_dims (mods problem) = VSeq (d :: ds) -> pm_extra (mods problem) = VSeq (VSeq p :: ps) ->
  prepare (repo mods pops) algo problem = Ok (Some v) -> level v a c ->
  fitted (List.length (d :: ds)) (List.length p) a c.
Proof. intros until c. exact (settings_listed mods pops problem algo d ds p ps v a c). Qed.
Print Assumptions C135_operators_fit_the_problem.

(** HGS over SMS-EMOA on a problem with two coordinates: two levels. *)
Example C135_example : exists v c1 c2, prepare world0 "HGS+SMSEMOA" "ZDT1" = Ok (Some v) /\ level v "HGS" c1 /\ level v "SMSEMOA" c2 /\
  In ("mutation_rate", num (1#2)) c2.
Proof.
  destruct (prepare world0 "HGS+SMSEMOA" "ZDT1") as [[[|a c|]|]| |] eqn:E; try (vm_compute in E; discriminate).
  vm_compute in E. injection E as E1 E2. subst a c.
  eexists _, _, _. split; [reflexivity|]. split; [apply level_here|].
  split; [eapply level_below; [cbn; do 2 right; left; reflexivity|apply level_here]|]. cbn. tauto.
Qed.

(** * C65: jobs *)

(** C65: whatever order the shuffle leaves, each chosen (problem, algorithm, repetition)
    occurs exactly once. *)
Theorem C65_each_job_once : forall a ps als queue,
  names (a_problem a) ps -> names (a_algo a) als ->
  Permutation (create_simulation a) queue ->
  NoDup queue /\
  forall c, In c queue <->
    chosen problems ps (c_problem c) /\ chosen algorithms als (c_algo c) /\
    (N.of_nat (c_run c) < a_N a)%N.
Proof.
  intros a ps als queue Hp Ha Hq. destruct (nodup_parse a) as [N1 N2]. split.
  - eapply Permutation_NoDup; [exact Hq|now apply nodup_create].
  - intro c. rewrite <- (parse_problems_named a ps Hp), <- (parse_algorithms_named a als Ha).
    rewrite <- in_create. split; apply Permutation_in; [now apply Permutation_sym|assumption].
Qed.
Print Assumptions C65_each_job_once.

(** C65: without [--problem] all listed problems are run. *)
Theorem C65_all_problems_by_default : forall a als queue,
  left_out (a_problem a) -> names (a_algo a) als ->
  Permutation (create_simulation a) queue ->
  NoDup queue /\
  forall c, In c queue <->
    In (c_problem c) problems /\ chosen algorithms als (c_algo c) /\
    (N.of_nat (c_run c) < a_N a)%N.
Proof.
  intros a als queue Hp Ha Hq. destruct (nodup_parse a) as [N1 N2]. split.
  - eapply Permutation_NoDup; [exact Hq|now apply nodup_create].
  - intro c. rewrite <- (parse_algorithms_named a als Ha).
    replace problems with (parse_problems a)
      by (unfold parse_problems; now rewrite left_out_given).
    rewrite <- in_create. split; apply Permutation_in; [now apply Permutation_sym|assumption].
Qed.
Print Assumptions C65_all_problems_by_default.

(** C65: the budgets are those typed, in increasing order. *)
Theorem C65_budgets_sorted : forall a words bs,
  words <> [] -> (forall x, In x words -> word x) -> a_budget a = String.concat "," words ->
  parse_budgets a = Some bs ->
  StronglySorted N.le bs /\
  exists typed, Permutation typed bs /\
    Forall2 (fun s n => int_of_str s = Some n) words typed.
Proof.
  intros a words bs Hne Hw E H. unfold parse_budgets in H. rewrite E in H.
  change (String.concat "," words) with (join (String ","%char "") words) in H.
  rewrite split_join in H; [|assumption|].
  2: { apply Forall_forall. intros x Hx. specialize (Hw x Hx). clear - Hw.
       induction x as [|y x IH]; cbn in *; tauto. }
  destruct (all_some (map int_of_str words)) as [typed|] eqn:Es; [|discriminate].
  inversion H; subst. split; [apply N_leb_sorted|].
  exists typed. split; [apply sort_by_perm|]. now apply all_some_map.
Qed.
Print Assumptions C65_budgets_sorted.

Definition args0 (algo : option string) : args :=
  {| a_problem := Some "zdt1,UF1"; a_algo := algo; a_N := 2; a_budget := "1500,500";
     a_renice := None; a_dir := None |}.

Example C65_example :
  names (a_problem (args0 (Some "hgs+nsgaii,IBEA"))) ["zdt1"; "UF1"] /\
  names (a_algo (args0 (Some "hgs+nsgaii,IBEA"))) ["hgs+nsgaii"; "IBEA"] /\
  map (fun c => (c_problem c, c_algo c, c_run c))
      (create_simulation (args0 (Some "hgs+nsgaii,IBEA"))) =
  [("ZDT1", "HGS+NSGAII", 0); ("ZDT1", "HGS+NSGAII", 1); ("ZDT1", "IBEA", 0);
   ("ZDT1", "IBEA", 1); ("UF1", "HGS+NSGAII", 0); ("UF1", "HGS+NSGAII", 1);
   ("UF1", "IBEA", 0); ("UF1", "IBEA", 1)]%nat /\
  parse_budgets (args0 None) = Some [500; 1500]%N.
Proof.
  split; [|split; [|split; vm_compute; reflexivity]].
  - constructor; try discriminate; [|reflexivity].
    intros x [<-|[<-|[]]]; cbn; repeat split; discriminate.
  - constructor; try discriminate; [|reflexivity].
    intros x [<-|[<-|[]]]; cbn; repeat split; discriminate.
Qed.

(** C96 would say: every algorithm named after [-a] is run, and without [-a] all are.  Both
    halves fail: a combination that is not in the list, such as the one evogil.py's help says
    should work, is dropped silently, and without [-a] nothing is run. *)
Theorem C96_named_algorithms_run_refuted :
  (exists a, names (a_algo a) ["HGS+IMGS+HGS+IMGA+IMGA+IMGA+SPEA2"] /\
     (0 < a_N a)%N /\ create_simulation a = []) /\
  (forall a, left_out (a_algo a) -> create_simulation a = []).
Proof.
  split.
  - exists (args0 (Some "HGS+IMGS+HGS+IMGA+IMGA+IMGA+SPEA2")).
    split; [|split; [reflexivity|vm_compute; reflexivity]].
    constructor; try discriminate; [|reflexivity].
    intros x [<-|[]]; cbn; repeat split; discriminate.
  - intros a H. unfold create_simulation, parse_algorithms. rewrite left_out_given by assumption.
    induction (parse_problems a) as [|p ps IH]; [reflexivity|exact IH].
Qed.
Print Assumptions C96_named_algorithms_run_refuted.

(** The part that holds: a name of the list is run on every chosen problem, in every
    repetition, however it is capitalised. *)
Theorem C96_listed_names_run_partial : forall a algo x als c,
  In algo algorithms -> names (a_algo a) als -> In x als -> same_name x algo ->
  c_algo c = algo -> (N.of_nat (c_run c) < a_N a)%N ->
  (left_out (a_problem a) /\ In (c_problem c) problems \/
   exists ps, names (a_problem a) ps /\ chosen problems ps (c_problem c)) ->
  In c (create_simulation a).
Proof.
  intros a algo x als c Ha Hn Hx Hs Hc Hr Hp.
  assert (Hch : chosen algorithms als (c_algo c)).
  { rewrite Hc. split; [assumption|]. exists x. auto. }
  destruct Hp as [[Hp Hin]|(ps & Hp & Hin)].
  - apply (C65_all_problems_by_default a als _ Hp Hn (Permutation_refl _)). auto.
  - apply (C65_each_job_once a ps als _ Hp Hn (Permutation_refl _)). auto.
Qed.
Print Assumptions C96_listed_names_run_partial.

(** Named in small letters, among others, and run twice on both problems. *)
Example C96_example :
  In "HGS+NSGAII" algorithms /\ same_name "hgs+nsgaii" "HGS+NSGAII" /\
  List.length (filter (fun c => String.eqb (c_algo c) "HGS+NSGAII") (create_simulation (args0 (Some "hgs+nsgaii,IBEA")))) = 4%nat.
Proof. split; [cbn; tauto|]. split; vm_compute; reflexivity. Qed.
