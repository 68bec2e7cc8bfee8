(** Proofs about run_config.py and the job list. *)
Require Import String Ascii List Arith NArith Lia Bool Permutation Sorting.Sorted.
From Verif Require Import PyStr PyStrFacts ConfModel ConfSpec ConfProofs RunConfModel RunConfSpec.
Import ListNotations.
Open Scope string_scope.

(** * Names *)
Lemma lower_char_comma : forall x, lower_char x = ","%char <-> x = ","%char.
Proof.
  intros x; split; [|intros ->; reflexivity].
  destruct x as [b0 b1 b2 b3 b4 b5 b6 b7].
  destruct b0, b1, b2, b3, b4, b5, b6, b7; vm_compute; intro H; try discriminate H;
    reflexivity.
Qed.

Lemma lower_app : forall a b, lower (a ++ b) = lower a ++ lower b.
Proof. induction a as [|x a IH]; intro b; cbn; [reflexivity|now rewrite IH]. Qed.

Lemma lower_concat : forall l, lower (String.concat "," l) = String.concat "," (map lower l).
Proof.
  induction l as [|a [|b l] IH]; [reflexivity|reflexivity|].
  cbn [map]. rewrite !concat_cons, !lower_app. cbn [map] in IH. now rewrite IH.
Qed.

Lemma word_lower : forall s, word s -> lacks ","%char (lower s).
Proof.
  induction s as [|x s IH]; cbn [lower lacks word]; [auto|]. intros [Hx Hs].
  split; [|auto]. intro E. exact (Hx (proj1 (lower_char_comma x) E)).
Qed.

Lemma truthy_true : forall s, s <> "" -> truthy s = true.
Proof.
  intros s H. unfold truthy. destruct (String.eqb_spec s ""); [congruence|reflexivity].
Qed.

Lemma filter_chosen : forall all ws, ws <> [] -> (forall x, In x ws -> word x) ->
  let l := filter (fun p => str_in (lower p)
                              (split ","%char (lower (String.concat "," ws)))) all in
  forall x, In x l <-> chosen all ws x.
Proof.
  intros all ws Hne Hw l x. unfold l.
  rewrite filter_In, str_in_iff, lower_concat.
  change (String.concat "," (map lower ws)) with (join (String ","%char "") (map lower ws)).
  rewrite split_join.
  - rewrite in_map_iff. unfold chosen, same_name. split.
    + intros [H (y & E & Hy)]. split; [assumption|]. exists y. auto.
    + intros [H (y & Hy & E)]. split; [assumption|]. exists y. auto.
  - intro E. apply map_eq_nil in E. contradiction.
  - apply Forall_forall. intros y Hy. apply in_map_iff in Hy. destruct Hy as (z & <- & Hz).
    apply word_lower. now apply Hw.
Qed.

(** * The lists of run_config.py *)
Lemma nodup_problems : NoDup problems.
Proof.
  unfold problems.
  repeat (constructor; [cbn; intro H; decompose [or] H; try discriminate; contradiction|]).
  constructor.
Qed.

Fixpoint nodupb (l : list string) : bool :=
  match l with [] => true | x :: r => negb (str_in x r) && nodupb r end.

Lemma nodupb_ok : forall l, nodupb l = true -> NoDup l.
Proof.
  induction l as [|x l IH]; cbn; intro H; [constructor|].
  apply andb_true_iff in H. destruct H as [H1 H2]. constructor; [|auto].
  intro Hx. apply str_in_iff in Hx. now rewrite Hx in H1.
Qed.

Lemma nodup_algorithms : NoDup algorithms.
Proof. apply nodupb_ok. vm_compute. reflexivity. Qed.

(** * Jobs *)
Lemma nodup_list_prod : forall {A B} (l1 : list A) (l2 : list B),
  NoDup l1 -> NoDup l2 -> NoDup (list_prod l1 l2).
Proof.
  intros A B l1 l2 H1 H2. induction l1 as [|a l1 IH]; cbn; [constructor|].
  inversion H1 as [|? ? Hn Hd]; subst.
  assert (Hm : NoDup (map (fun y => (a, y)) l2)).
  { clear - H2. induction H2; cbn; constructor; auto.
    intro HI. apply in_map_iff in HI. destruct HI as (y & E & Hy). inversion E; subst.
    contradiction. }
  specialize (IH Hd). revert IH Hm.
  assert (Hdis : forall p, In p (map (fun y => (a, y)) l2) -> ~ In p (list_prod l1 l2)).
  { intros [x y] Hp. apply in_map_iff in Hp. destruct Hp as (z & E & Hz).
    inversion E; subst. intro HI. apply in_prod_iff in HI. tauto. }
  revert Hdis. generalize (map (fun y => (a, y)) l2) as l. clear.
  induction l as [|p l IH]; cbn; intros Hdis Hr Hm; [assumption|].
  inversion Hm; subst. constructor.
  - intro HI. apply in_app_or in HI. destruct HI as [HI|HI]; [contradiction|].
    apply (Hdis p); auto.
  - apply IH; auto.
Qed.

Lemma in_create : forall a c, In c (create_simulation a) <->
  In (c_problem c) (parse_problems a) /\ In (c_algo c) (parse_algorithms a) /\
  (N.of_nat (c_run c) < a_N a)%N.
Proof.
  intros a [p al r]. unfold create_simulation. rewrite in_flat_map. cbn. split.
  - intros ([p' a'] & H1 & H2). apply in_prod_iff in H1. apply in_map_iff in H2.
    destruct H2 as (r' & E & Hr). inversion E; subst. apply in_seq in Hr. cbn in *.
    repeat split; try tauto. lia.
  - intros (H1 & H2 & H3). exists (p, al). split; [now apply in_prod_iff|].
    apply in_map_iff. exists r. split; [reflexivity|]. apply in_seq. lia.
Qed.

Lemma nodup_create : forall a, NoDup (parse_problems a) -> NoDup (parse_algorithms a) ->
  NoDup (create_simulation a).
Proof.
  intros a H1 H2. unfold create_simulation.
  pose proof (nodup_list_prod _ _ H1 H2) as H.
  induction H as [|[p al] l Hn Hd IH]; cbn; [constructor|].
  set (f := fun r => {| c_problem := p; c_algo := al; c_run := r |}).
  assert (Hm : NoDup (map f (seq 0 (N.to_nat (a_N a))))).
  { apply FinFun.Injective_map_NoDup; [|apply seq_NoDup].
    intros x y E. inversion E; auto. }
  assert (Hdis : forall c, In c (map f (seq 0 (N.to_nat (a_N a)))) ->
    ~ In c (flat_map (fun pa => map (fun r =>
        {| c_problem := fst pa; c_algo := snd pa; c_run := r |})
        (seq 0 (N.to_nat (a_N a)))) l)).
  { intros c Hc HI. apply in_map_iff in Hc. destruct Hc as (r & <- & _).
    apply in_flat_map in HI. destruct HI as ([p' al'] & H3 & H4).
    apply in_map_iff in H4. destruct H4 as (r' & E & _). inversion E; subst. contradiction. }
  revert Hdis Hm IH.
  generalize (map f (seq 0 (N.to_nat (a_N a)))) as l1.
  generalize (flat_map (fun pa => map (fun r =>
        {| c_problem := fst pa; c_algo := snd pa; c_run := r |})
        (seq 0 (N.to_nat (a_N a)))) l) as l2. clear.
  induction l1 as [|c l1 IH]; cbn; intros Hdis Hm Hr; [assumption|].
  inversion Hm; subst. constructor.
  - intro HI. apply in_app_or in HI. destruct HI as [HI|HI]; [contradiction|].
    apply (Hdis c); auto.
  - apply IH; auto.
Qed.

Lemma parse_problems_named : forall a ws, names (a_problem a) ws ->
  forall x, In x (parse_problems a) <-> chosen problems ws x.
Proof.
  intros a ws [H1 H2 H3 H4] x. unfold parse_problems, given. rewrite H4, truthy_true by auto.
  now apply filter_chosen.
Qed.

Lemma parse_algorithms_named : forall a ws, names (a_algo a) ws ->
  forall x, In x (parse_algorithms a) <-> chosen algorithms ws x.
Proof.
  intros a ws [H1 H2 H3 H4] x. unfold parse_algorithms, given.
  rewrite H4, truthy_true by auto. now apply filter_chosen.
Qed.

Lemma left_out_given : forall o, left_out o -> given o = None.
Proof. intros o [E|E]; subst o; reflexivity. Qed.

Lemma nodup_parse : forall a, NoDup (parse_problems a) /\ NoDup (parse_algorithms a).
Proof.
  intro a. unfold parse_problems, parse_algorithms. split.
  - destruct (given (a_problem a)); [apply NoDup_filter|]; apply nodup_problems.
  - destruct (given (a_algo a)); [apply NoDup_filter; apply nodup_algorithms|constructor].
Qed.

(** * Budgets *)
Lemma all_some_map : forall {A B} (f : A -> option B) l r,
  all_some (map f l) = Some r <-> Forall2 (fun x y => f x = Some y) l r.
Proof.
  intros A B f; induction l as [|x l IH]; intro r; cbn.
  - split; [intro H; inversion H; constructor|intro H; inversion H; reflexivity].
  - destruct (f x) as [y|] eqn:E; cbn.
    + destruct (all_some (map f l)) as [s|] eqn:Es; cbn.
      * split.
        -- intro H; inversion H; subst. constructor; [assumption|]. now apply IH.
        -- intro H; inversion H as [|? y' ? r' H1 H2]; subst.
           apply IH in H2. inversion H2; subst. congruence.
      * split; [discriminate|]. intro H; inversion H as [|? y' ? r' H1 H2]; subst.
        apply IH in H2. discriminate.
    + split; [discriminate|]. intro H; inversion H; subst. congruence.
Qed.

Lemma N_leb_sorted : forall l, StronglySorted N.le (sort_by N.leb l).
Proof.
  intro l.
  assert (H : StronglySorted (le_by N.leb) (sort_by N.leb l)).
  { apply sort_by_sorted.
    - intros x y. destruct (N.leb_spec x y); auto. right. apply N.leb_le. lia.
    - intros x y z H1 H2. apply N.leb_le in H1, H2. apply N.leb_le. lia. }
  induction H as [|x l' Hs IH Hf]; constructor; [assumption|].
  eapply Forall_impl; [|exact Hf]. intros y Hy. now apply N.leb_le.
Qed.

(** * The constructor check, as a computation *)
Section Check.
  Variable sg : string -> option signature.
  Variable cl : string -> list string.

  Fixpoint checkb (fuel : nat) (extra : list string) (v : val cval) : bool :=
    match fuel, v with
    | S fuel', Partial algo c =>
        match sg algo with
        | Some s =>
            forallb (fun k => str_in k (map fst c) || str_in k extra) (required s) &&
            forallb (fun k => str_in k (required s) || str_in k (optional s))
                    (map fst c ++ extra) &&
            forallb (fun kv => if String.eqb (fst kv) "driver"
                               then checkb fuel' (cl algo) (snd kv) else true) c
        | None => false
        end
    | _, _ => false
    end.

  Lemma checkb_ok : forall fuel extra v, checkb fuel extra v = true ->
    constructible sg cl extra v.
  Proof.
    induction fuel as [|fuel IH]; intros extra v H; [discriminate|].
    cbn in H. destruct v as [x|algo c|m k]; try discriminate.
    destruct (sg algo) as [s|] eqn:Es; [|discriminate].
    apply andb_true_iff in H. destruct H as [H H3].
    apply andb_true_iff in H. destruct H as [H1 H2].
    rewrite forallb_forall in H1, H2, H3.
    econstructor; [exact Es| | |].
    - intros k Hk. specialize (H1 k Hk). apply orb_true_iff in H1.
      rewrite !str_in_iff in H1. exact H1.
    - intros k Hk. assert (Hk' : In k (map fst c ++ extra)).
      { apply in_or_app. exact Hk. }
      specialize (H2 k Hk'). apply orb_true_iff in H2. rewrite !str_in_iff in H2. exact H2.
    - intros inner Hi. apply IH. specialize (H3 _ Hi). exact H3.
  Qed.
End Check.

(** The hooks of run_config.py only update the configuration, on any problem with at least one
    dimension and a front with at least one point. *)
Definition repo_hooks (name : string) : option (problem_mod cval -> conf cval) :=
  option_map (fun f pm => match f pm with Some u => u | None => [] end)
             (get name hook_table).

Lemma repo_proper : forall mods pops pm, ordinary pm ->
  proper (repo mods pops) repo_hooks pm.
Proof.
  intros mods pops pm [(d & ds & Hd) (p & ps & Hp)].
  assert (Hr : exists q, rate_of pm = Some q).
  { unfold rate_of. rewrite Hd. cbn. eauto. }
  assert (Hq : exists v, reference_of pm = Some v).
  { unfold reference_of. rewrite Hp. cbn. eauto. }
  destruct Hr as [q Hr], Hq as [v Hq].
  assert (Hall : Forall (fun kf => exists u, snd kf pm = Some u /\ nodupb (map fst u) = true)
            hook_table).
  { assert (H1 : exists u, hgs_hook pm = Some u /\ nodupb (map fst u) = true).
    { unfold hgs_hook. rewrite Hr, Hq. eexists; split; [reflexivity|vm_compute; reflexivity]. }
    assert (H2 : exists u, variance_hook pm = Some u /\ nodupb (map fst u) = true).
    { unfold variance_hook. rewrite Hr. eexists; split; [reflexivity|vm_compute; reflexivity]. }
    assert (H3 : exists u, smsemoa_hook pm = Some u /\ nodupb (map fst u) = true).
    { unfold smsemoa_hook. rewrite Hr, Hq.
      eexists; split; [reflexivity|vm_compute; reflexivity]. }
    unfold hook_table. repeat (constructor; [assumption|]). constructor. }
  assert (Hget : forall name f, get name hook_table = Some f ->
    exists u, f pm = Some u /\ NoDup (map fst u)).
  { intros name f E. apply get_in in E. rewrite Forall_forall in Hall.
    destruct (Hall _ E) as (u & Hu & Hn). exists u. split; [exact Hu|now apply nodupb_ok]. }
  split.
  - intro name. cbn [repo w_hooks]. unfold repo_hooks.
    destruct (get name hook_table) as [f|] eqn:E; cbn; [|exact I].
    intro c. unfold run_hook. destruct (Hget _ _ E) as (u & Hu & _). rewrite Hu. now left.
  - intros name u Hu. unfold repo_hooks in Hu.
    destruct (get name hook_table) as [f|] eqn:E; [|discriminate]. inversion Hu; subst.
    destruct (Hget _ _ E) as (u & Hu' & Hn). unfold is_dict. rewrite Hu'. exact Hn.
  - intros k dct E. cbn in E. unfold algo_base in E. destruct k as [a|a subs]; [|discriminate].
    apply get_in in E. apply nodupb_ok.
    assert (Ht : forallb (fun kd => nodupb (map fst (snd kd))) algo_base_table = true)
      by (vm_compute; reflexivity).
    rewrite forallb_forall in Ht. exact (Ht _ E).
  - intros k dct E. discriminate.
Qed.

Lemma prepare_mods : forall mods pops algo problem,
  prepare (repo mods pops) algo problem
  = prepare (repo (fun _ => mods problem) pops) algo problem.
Proof.
  intros mods pops algo problem. unfold prepare. generalize (@None (val cval)).
  generalize (List.length (split "+"%char algo)) as n.
  induction n as [|n IH]; intro driver; cbn [prepare_from]; [reflexivity|].
  destruct (nth_error (split "+"%char algo) n) as [a|]; [|reflexivity].
  change (prepare_with_driver (repo (fun _ => mods problem) pops) a problem driver
            (split "+"%char algo) n)
    with (prepare_with_driver (repo mods pops) a problem driver (split "+"%char algo) n).
  destruct (prepare_with_driver (repo mods pops) a problem driver (split "+"%char algo) n);
    cbn [bind]; auto.
Qed.

Lemma listed_ok : forall mods pops problem algo, In problem problems -> In algo algorithms ->
  ordinary (mods problem) ->
  exists p, prepare (repo mods pops) algo problem = Ok (Some p) /\
            constructible sigs calls [] p.
Proof.
  intros mods pops problem algo Hp Ha [(d & ds & Hd) (p & ps & Hf)].
  rewrite prepare_mods.
  destruct (mods problem) as [dims fits extra]. cbn in Hd, Hf. subst dims extra.
  set (pm := {| pm_dims := VSeq (d :: ds); pm_fitnesses := fits;
                pm_extra := VSeq (VSeq p :: ps) |}).
  set (run := fun pa : string * string =>
     match prepare (repo (fun _ => pm) pops) (snd pa) (fst pa) with
     | Ok (Some v) => checkb sigs calls 3 [] v
     | _ => false
     end).
  assert (H : forallb run (list_prod problems algorithms) = true)
    by (vm_compute; reflexivity).
  rewrite forallb_forall in H.
  specialize (H (problem, algo) (in_prod _ _ _ _ Hp Ha)). unfold run in H.
  cbn [fst snd] in H.
  destruct (prepare (repo (fun _ => pm) pops) algo problem) as [[v|]| |e]; try discriminate.
  exists v. split; [reflexivity|]. now apply checkb_ok in H.
Qed.
