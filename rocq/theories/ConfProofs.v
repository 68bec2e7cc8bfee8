(** Proofs about configuration layers. *)
Require Import String Ascii List Arith Bool Lia.
From Verif Require Import PyStr PyStrFacts ConfModel ConfSpec.
Import ListNotations.
Open Scope string_scope.

(** * Dictionaries *)
Section Dict.
  Context {A : Type}.
  Implicit Types d u : dict A.

  Lemma get_in : forall k v d, get k d = Some v -> In (k, v) d.
  Proof.
    intros k v; induction d as [|[k' v'] d IH]; cbn; [discriminate|].
    destruct (String.eqb_spec k k') as [->|]; intro H; [left; congruence|right; auto].
  Qed.

  Lemma get_none : forall k d, get k d = None <-> ~ In k (keys d).
  Proof.
    intros k; induction d as [|[k' v'] d IH]; cbn; [tauto|].
    destruct (String.eqb_spec k k') as [->|N].
    - split; [discriminate|]. intro H; exfalso; auto.
    - rewrite IH. split; [intros H [E|E]; [congruence|auto]|tauto].
  Qed.

  Lemma get_nodup : forall k v d, NoDup (keys d) -> In (k, v) d -> get k d = Some v.
  Proof.
    intros k v; induction d as [|[k' v'] d IH]; cbn; [tauto|].
    intros HN [E|H]; inversion HN as [|? ? Hn Hd]; subst.
    - inversion E; subst. now rewrite String.eqb_refl.
    - destruct (String.eqb_spec k k') as [->|N]; [|auto].
      exfalso; apply Hn. apply in_map_iff. now exists (k', v).
  Qed.

  Lemma get_put : forall k k' v d,
    get k (put k' v d) = if String.eqb k k' then Some v else get k d.
  Proof.
    intros k k' v; induction d as [|[k2 v2] d IH]; cbn; [reflexivity|].
    destruct (String.eqb_spec k' k2) as [->|N]; cbn.
    - destruct (String.eqb_spec k k2); reflexivity.
    - destruct (String.eqb_spec k k2) as [->|N2].
      + destruct (String.eqb_spec k2 k'); [congruence|reflexivity].
      + apply IH.
  Qed.

  Lemma keys_put : forall k v d x, In x (keys (put k v d)) <-> x = k \/ In x (keys d).
  Proof.
    intros k v; induction d as [|[k2 v2] d IH]; intro x; cbn.
    - split; [intros [<-|[]]; auto|intros [->|[]]; auto].
    - destruct (String.eqb_spec k k2) as [->|N]; cbn.
      + split; [intros [<-|H]; auto|intros [->|[<-|H]]; auto].
      + change (map fst (put k v d)) with (keys (put k v d)). rewrite IH.
        split; [intros [<-|[->|H]]; auto|intros [->|[<-|H]]; auto].
  Qed.

  Lemma nodup_put : forall k v d, NoDup (keys d) -> NoDup (keys (put k v d)).
  Proof.
    intros k v; induction d as [|[k2 v2] d IH]; cbn; intro H.
    - repeat constructor; auto.
    - inversion H as [|? ? Hn Hd]; subst.
      destruct (String.eqb_spec k k2) as [->|N]; cbn; constructor; auto.
      intro HI. apply keys_put in HI. destruct HI as [->|HI]; [congruence|auto].
  Qed.

  Lemma nodup_update : forall u d, NoDup (keys d) -> NoDup (keys (update d u)).
  Proof.
    induction u as [|[k v] u IH]; intros d H; cbn; [assumption|].
    apply IH. now apply nodup_put.
  Qed.

  Lemma get_update : forall u d k, NoDup (keys u) ->
    get k (update d u) = match get k u with Some v => Some v | None => get k d end.
  Proof.
    unfold update.
    induction u as [|[k' v'] u IH]; intros d k H; cbn [fold_left get fst snd]; [reflexivity|].
    inversion H as [|? ? Hn Hd]; subst. rewrite IH by assumption.
    rewrite get_put. destruct (String.eqb_spec k k') as [->|N]; [|reflexivity].
    destruct (get k' u) eqn:E; [|reflexivity].
    exfalso. apply Hn. apply get_in in E. apply in_map_iff. now exists (k', a).
  Qed.
End Dict.

Section Conf.
  Context {V : Type}.
  Notation val := (val V).
  Notation conf := (conf V).

  Definition stack (ls : list layer) (c : conf) : conf :=
    fold_left (fun c l => update_from l c) ls c.

  Definition dict_layer (l : @layer V) : Prop := forall d, l = Some d -> NoDup (keys d).

  Lemma nodup_stack : forall ls c, NoDup (keys c) -> NoDup (keys (stack ls c)).
  Proof.
    induction ls as [|l ls IH]; intros c H; cbn; [assumption|].
    apply IH. destruct l; cbn; [now apply nodup_update|assumption].
  Qed.

  Lemma stack_app : forall l1 l2 c, stack (l1 ++ l2) c = stack l2 (stack l1 c).
  Proof. intros; unfold stack; now rewrite fold_left_app. Qed.

  Lemma get_stack : forall ls k, Forall dict_layer ls ->
    match get k (stack ls []) with
    | Some v => last_word ls k v /\ (forall v', last_word ls k v' -> v' = v)
    | None => forall l, In l ls -> silent l k
    end.
  Proof.
    intros ls k. induction ls as [|l ls IH] using rev_ind; intro HF.
    - cbn. tauto.
    - apply Forall_app in HF. destruct HF as [HF Hl]. inversion Hl as [|? ? Hd _]; subst.
      specialize (IH HF). rewrite stack_app. cbn [stack fold_left].
      assert (Hlast : forall v', last_word (ls ++ [l]) k v' ->
        supplies l k v' \/ (last_word ls k v' /\ silent l k)).
      { intros v' (e & m & t & E & Hs & Ht).
        destruct t as [|x t] using rev_ind.
        - apply app_inj_tail in E. destruct E as [_ ->]. now left.
        - clear IHt. right. rewrite app_comm_cons, app_assoc in E.
          apply app_inj_tail in E. destruct E as [-> ->].
          split; [exists e, m, t; repeat split; auto|].
          + intros l' Hl'. apply Ht. apply in_or_app; now left.
          + apply Ht. apply in_or_app; right; now left. }
      destruct l as [d|]; cbn [update_from].
      + specialize (Hd d eq_refl). rewrite get_update by assumption.
        destruct (get k d) as [v|] eqn:E.
        * split.
          -- exists ls, (Some d), []. repeat split; [|intros l' []].
             exists d. split; [reflexivity|now apply get_in].
          -- intros v' H. apply Hlast in H. destruct H as [(d' & E' & H)|[_ H]].
             ++ inversion E'; subst. apply get_nodup in H; [congruence|assumption].
             ++ exfalso. apply (H d v eq_refl). now apply get_in.
        * assert (Hsil : silent (Some d) k).
          { intros d' v' E' H. inversion E'; subst.
            apply get_none in E. apply E. apply in_map_iff. now exists (k, v'). }
          destruct (get k (stack ls [])) as [v|].
          -- destruct IH as [(e & m & t & E1 & Hs & Ht) IH]. split.
             ++ exists e, m, (t ++ [Some d])%list. repeat split; auto.
                ** rewrite E1, <- app_assoc. reflexivity.
                ** intros l' Hl'. apply in_app_or in Hl'.
                   destruct Hl' as [H|[<-|[]]]; auto.
             ++ intros v' H. apply Hlast in H. destruct H as [(d' & E' & H)|[H _]]; auto.
                inversion E'; subst. exfalso. eapply Hsil; [reflexivity|exact H].
          -- intros l' Hl'. apply in_app_or in Hl'. destruct Hl' as [H|[<-|[]]]; auto.
      + assert (Hsil : silent (@None conf) k) by (intros d v; discriminate).
        destruct (get k (stack ls [])) as [v|].
        * destruct IH as [(e & m & t & E1 & Hs & Ht) IH]. split.
          -- exists e, m, (t ++ [None])%list. repeat split; auto.
             ++ rewrite E1, <- app_assoc. reflexivity.
             ++ intros l' Hl'. apply in_app_or in Hl'.
                destruct Hl' as [H|[<-|[]]]; auto.
          -- intros v' H. apply Hlast in H. destruct H as [(d' & E' & H)|[H _]]; auto.
             discriminate.
        * intros l' Hl'. apply in_app_or in Hl'. destruct Hl' as [H|[<-|[]]]; auto.
  Qed.

  Variable w : world V.
  Variable hooks : string -> option (problem_mod V -> conf).
  Variable pm : problem_mod V.
  Hypothesis P : proper w hooks pm.

  Lemma custom_init_update : forall algo drivers pos problem c,
    custom_init w algo pm drivers pos problem c =
    Ok (update_from (option_map (fun f => f pm)
          (hooks (hook_key algo drivers pos problem))) c).
  Proof.
    intros. unfold custom_init.
    pose proof (pr_hooks w hooks pm P (hook_key algo drivers pos problem)) as H.
    destruct (w_hooks w _) as [h|], (hooks _) as [u|]; try contradiction; cbn.
    - destruct (H c) as [E|E]; rewrite E; reflexivity.
    - reflexivity.
  Qed.

  Lemma keyless : forall algo problem, problem <> "" ->
    hook_key algo [] 0 "" = "init_alg___" ++ algo /\
    hook_key algo [] 0 problem = "init_alg___" ++ algo ++ "____" ++ problem.
  Proof.
    intros algo problem H. unfold hook_key, truthy.
    destruct (String.eqb_spec problem "") as [E|_]; [congruence|].
    cbn [negb String.eqb]. rewrite !app_nil_r_s. now split.
  Qed.

  Lemma keyed : forall algo pre subs problem, problem <> "" ->
    let drivers := (pre ++ algo :: subs)%list in
    skipn (S (List.length pre)) drivers = subs /\
    hook_key algo drivers (List.length pre) ""
      = "init_alg___" ++ algo ++ "__" ++ String.concat "_" subs /\
    hook_key algo drivers (List.length pre) problem
      = "init_alg___" ++ algo ++ "__" ++ String.concat "_" subs ++ "____" ++ problem.
  Proof.
    intros algo pre subs problem H drivers.
    assert (E : skipn (S (List.length pre)) drivers = subs).
    { unfold drivers. replace (S (List.length pre)) with (List.length (pre ++ [algo])%list)
        by (rewrite app_length; cbn; lia).
      replace (pre ++ algo :: subs)%list with ((pre ++ [algo]) ++ subs)%list
        by now rewrite <- app_assoc.
      rewrite skipn_app, skipn_all, Nat.sub_diag. reflexivity. }
    split; [exact E|].
    assert (N : drivers <> []) by (unfold drivers; now destruct pre).
    unfold hook_key, join, truthy. destruct drivers as [|x xs] eqn:Ed; [congruence|].
    rewrite E. destruct (String.eqb_spec problem "") as [E0|_]; [congruence|].
    cbn [negb String.eqb]. rewrite ?app_nil_r_s.
    split; rewrite ?app_nil_r_s, ?app_assoc_s; reflexivity.
  Qed.

  (** What [prepare_with_driver] computes. *)
  Lemma prepare_one : forall algo pre subs problem driver,
    problem <> "" -> w_problem w problem = Some pm -> w_class w algo = true ->
    let drivers := (pre ++ algo :: subs)%list in
    prepare_with_driver w algo problem driver drivers (List.length pre) =
    bind (match driver with
          | None => Ok None
          | Some d => bind (prepare_message_adapter w algo drivers (List.length pre))
              (fun a => Ok (Some [("driver", d); ("driver_message_adapter_factory", a)]))
          end) (fun sub =>
      Ok (Partial algo (load_init_population w subs pm
            (stack (layers w hooks algo subs problem pm sub) [])))).
  Proof.
    intros algo pre subs problem driver Hp Hm Hc drivers.
    unfold prepare_with_driver. rewrite Hc, Hm.
    destruct (keyless algo problem Hp) as [K1 K3].
    destruct (keyed algo pre subs problem Hp) as (K0 & K2 & K4).
    change (pre ++ algo :: subs)%list with drivers in K0, K2, K4.
    assert (Rest : forall c sub,
      c = stack [Some [("dims", Plain (pm_dims pm)); ("fitnesses", Plain (pm_fitnesses pm))];
                 sub] [] ->
      (let c := load_algorithm_config w algo c in
       let c := load_subdrivers_config w algo drivers (List.length pre) c in
       let c := load_problem_config w algo problem [] 0 c in
       let c := load_problem_config w algo problem drivers (List.length pre) c in
       bind (custom_init w algo pm [] 0 "" c) (fun c =>
       bind (custom_init w algo pm drivers (List.length pre) "" c) (fun c =>
       bind (custom_init w algo pm [] 0 problem c) (fun c =>
       bind (custom_init w algo pm drivers (List.length pre) problem c) (fun c =>
       Ok (Partial algo (load_init_population w (skipn (S (List.length pre)) drivers)
                           pm c)))))))
      = Ok (Partial algo (load_init_population w subs pm
            (stack (layers w hooks algo subs problem pm sub) [])))).
    { intros c sub ->. unfold load_algorithm_config, load_subdrivers_config,
        load_problem_config.
      rewrite !custom_init_update; cbn [bind].
      rewrite !custom_init_update; cbn [bind].
      rewrite !custom_init_update; cbn [bind].
      rewrite !custom_init_update; cbn [bind].
      rewrite K1, K2, K3, K4, K0. reflexivity. }
    destruct driver as [d|].
    - cbn [load_driver].
      destruct (prepare_message_adapter w algo drivers (List.length pre)) as [a| |e];
        cbn [bind]; try reflexivity.
      apply Rest. reflexivity.
    - cbn [load_driver bind]. apply Rest. reflexivity.
  Qed.

  Lemma layers_dicts : forall algo subs problem sub, dict_layer sub ->
    Forall dict_layer (layers w hooks algo subs problem pm sub).
  Proof.
    intros algo subs problem sub Hs. unfold layers.
    assert (Hh : forall name, dict_layer (option_map (fun f => f pm) (hooks name))).
    { intros name d E. destruct (hooks name) as [u|] eqn:Eu; [|discriminate].
      inversion E; subst. exact (pr_hook_dicts w hooks pm P name u Eu). }
    repeat constructor; auto.
    - intros d E. inversion E; subst. cbn.
      repeat constructor; cbn; [intros [E1|[]]; discriminate|tauto].
    - intros d E. exact (pr_algo_dicts w hooks pm P _ _ E).
    - intros d E. exact (pr_algo_dicts w hooks pm P _ _ E).
    - intros d E. exact (pr_cust_dicts w hooks pm P _ _ E).
    - intros d E. exact (pr_cust_dicts w hooks pm P _ _ E).
  Qed.

  Lemma stack_options : forall algo subs problem sub, dict_layer sub ->
    options w hooks problem pm algo subs sub
      (load_init_population w subs pm (stack (layers w hooks algo subs problem pm sub) [])).
  Proof.
    intros algo subs problem sub Hs. unfold options.
    set (ls := layers w hooks algo subs problem pm sub). cbv zeta.
    assert (HF : Forall dict_layer ls) by now apply layers_dicts.
    assert (ND : NoDup (keys (stack ls []))) by (apply nodup_stack; constructor).
    assert (Hin : forall k v, In (k, v) (stack ls []) <-> last_word ls k v).
    { intros k v. pose proof (get_stack ls k HF) as G.
      destruct (get k (stack ls [])) as [v'|] eqn:E.
      - destruct G as [G1 G2]. split.
        + intro H. apply get_nodup in H; [|assumption]. congruence.
        + intro H. apply G2 in H. subst. now apply get_in.
      - split.
        + intro H. apply get_nodup in H; [congruence|assumption].
        + intros (e & m & t & E1 & (d & Ed & Hd) & _). exfalso.
          apply (G m) with (d := d) (v := v); auto.
          rewrite E1. apply in_or_app; right; now left. }
    unfold load_init_population.
    pose proof (get_stack ls "population" HF) as G.
    destruct (get "population" (stack ls [])) as [v0|] eqn:E.
    - split; [exact ND|]. split; [intros; apply Hin|].
      intro v. rewrite Hin. split; [auto|]. intros [H|[H _]]; [assumption|].
      exfalso. destruct G as [(e & m & t & E1 & (d & Ed & Hd) & _) _].
      apply (H m) with (d := d) (v := v0); auto.
      rewrite E1. apply in_or_app; right; now left.
    - assert (ND2 : NoDup (keys (update (stack ls [])
               [("population", Plain (w_population w subs pm))])))
        by now apply nodup_update.
      assert (Hin2 : forall k v, In (k, v) (update (stack ls [])
               [("population", Plain (w_population w subs pm))]) <->
               (k = "population" /\ v = Plain (w_population w subs pm)) \/
               (k <> "population" /\ In (k, v) (stack ls []))).
      { intros k v. split.
        - intro H. apply get_nodup in H; [|assumption].
          rewrite get_update in H by (cbn; repeat constructor; auto).
          cbn [get] in H. destruct (String.eqb_spec k "population") as [->|N].
          + left. split; congruence.
          + right. split; [assumption|]. now apply get_in.
        - intros [[-> ->]|[N H]]; apply get_in;
            rewrite get_update by (cbn; repeat constructor; auto); cbn [get].
          + reflexivity.
          + destruct (String.eqb_spec k "population") as [->|_]; [congruence|].
            now apply get_nodup. }
      split; [exact ND2|]. split.
      + intros k v N. rewrite Hin2, Hin. split; [intros [[-> _]|[_ H]]; [congruence|auto]|auto].
      + intro v. rewrite Hin2. split.
        * intros [[_ ->]|[N _]]; [right; auto|congruence].
        * intros [H|[_ ->]]; [|left; auto].
          exfalso. destruct H as (e & m & t & E1 & (d & Ed & Hd) & _).
          apply (G m) with (d := d) (v := v); auto.
          rewrite E1. apply in_or_app; right; now left.
  Qed.

  Definition adapted (a : string) (after : list string) : bool :=
    match after with
    | [] => true
    | d :: _ => w_adapter w d (d ++ a ++ "MessageAdapter")
    end.

  (** The loop, run on the last [n] positions already done. *)
  Lemma prepare_from_ok : forall problem pre post driver,
    problem <> "" -> w_problem w problem = Some pm ->
    (post = [] /\ driver = None \/
     post <> [] /\ exists d, driver = Some d /\ configured w hooks problem pm post d) ->
    match prepare_from w problem (pre ++ post) (List.length pre) driver with
    | Ok r => (pre ++ post = [] /\ r = None)%list \/
              exists d, r = Some d /\ configured w hooks problem pm (pre ++ post)%list d /\
                (forall a, In a pre -> w_class w a = true) /\
                (forall b a t, pre = (b ++ a :: t)%list -> adapted a (t ++ post) = true)
    | NotViable => exists b a t, pre = (b ++ a :: t)%list /\ adapted a (t ++ post) = false /\
                     (forall x, In x (a :: t) -> w_class w x = true)
    | Error _ => exists a, In a pre /\ w_class w a = false
    end.
  Proof.
    intros problem pre; induction pre as [|a pre IH] using rev_ind;
      intros post driver Hp Hm Hd.
    - cbn. destruct Hd as [[-> ->]|[N (d & -> & Hd)]]; [left; auto|].
      right. exists d. split; [reflexivity|]. split; [exact Hd|].
      split; [intros a []|]. intros b a t E. destruct b; discriminate.
    - rewrite app_length, Nat.add_comm. cbn [List.length Nat.add prepare_from].
      rewrite <- app_assoc. cbn [app].
      rewrite nth_error_app2, Nat.sub_diag by auto. cbn [nth_error].
      destruct (w_class w a) eqn:Hc.
      2: { unfold prepare_with_driver. rewrite Hc. cbn [bind].
           exists a. split; [apply in_or_app; right; now left|assumption]. }
      rewrite (prepare_one a pre post problem driver Hp Hm Hc).
      assert (Hsub : forall sub d',
        Partial a (load_init_population w post pm
          (stack (layers w hooks a post problem pm sub) [])) = d' ->
        configured w hooks problem pm (a :: post) d' -> adapted a post = true ->
        match prepare_from w problem (pre ++ a :: post) (List.length pre) (Some d') with
        | Ok r => (pre ++ a :: post = [] /\ r = None)%list \/
              exists d, r = Some d /\
                configured w hooks problem pm (pre ++ a :: post)%list d /\
                (forall a', In a' (pre ++ [a]) -> w_class w a' = true) /\
                (forall b a' t, (pre ++ [a] = b ++ a' :: t)%list ->
                   adapted a' (t ++ post) = true)
        | NotViable => exists b a' t, (pre ++ [a] = b ++ a' :: t)%list /\
                         adapted a' (t ++ post) = false /\
                         (forall x, In x (a' :: t) -> w_class w x = true)
        | Error _ => exists a', In a' (pre ++ [a]) /\ w_class w a' = false
        end).
      { intros sub d' Ed' Hcfg Had.
        assert (Hpre : (a :: post)%list = [] /\ Some d' = None \/
          (a :: post)%list <> [] /\ exists d, Some d' = Some d /\
            configured w hooks problem pm (a :: post) d).
        { right. split; [discriminate|]. exists d'. auto. }
        specialize (IH (a :: post) (Some d') Hp Hm Hpre).
        destruct (prepare_from w problem (pre ++ a :: post) (List.length pre) (Some d'))
          as [r| |e] eqn:Er.
        - destruct IH as [[E _]|(d & -> & H1 & H2 & H3)].
          + destruct pre; discriminate.
          + right. exists d. split; [reflexivity|]. split; [exact H1|]. split.
            * intros x Hx. apply in_app_or in Hx. destruct Hx as [Hx|[<-|[]]]; auto.
            * intros b a' t E. destruct t as [|x t] using rev_ind.
              -- apply app_inj_tail in E. destruct E as [_ <-]. exact Had.
              -- clear IHt. rewrite app_comm_cons, app_assoc in E.
                 apply app_inj_tail in E. destruct E as [-> <-].
                 rewrite <- app_assoc. cbn [app]. now apply (H3 b a' t).
        - destruct IH as (b & a' & t & -> & H1 & H2).
          exists b, a', (t ++ [a])%list. split; [now rewrite <- app_assoc|].
            split; [now rewrite <- app_assoc|].
            intros x [<-|Hx]; [apply H2; now left|].
            apply in_app_or in Hx. destruct Hx as [Hx|[<-|[]]]; auto.
            apply H2. now right.
        - destruct IH as (a' & H1 & H2).
          exists a'. split; [apply in_or_app; now left|assumption]. }
      destruct Hd as [[-> ->]|[N (d & -> & Hd)]].
      + cbn [bind]. eapply Hsub; [reflexivity| |reflexivity].
        constructor. apply stack_options. intros x E; discriminate.
      + destruct post as [|d0 subs]; [congruence|].
        unfold prepare_message_adapter.
        assert (En : nth_error (pre ++ a :: d0 :: subs) (S (List.length pre)) = Some d0).
        { rewrite nth_error_app2 by lia.
          replace (S (List.length pre) - List.length pre) with 1 by lia. reflexivity. }
        rewrite En. destruct (w_adapter w d0 (d0 ++ a ++ "MessageAdapter")) eqn:Ea;
          cbn [bind].
        * eapply Hsub; [reflexivity| |exact Ea].
          constructor 2 with (inner := d); [assumption|]. apply stack_options.
          intros x E. inversion E; subst. cbn.
          repeat constructor; cbn; [intros [E1|[]]; discriminate|tauto].
        * exists pre, a, []. split; [reflexivity|]. split; [exact Ea|].
          intros x [<-|[]]; assumption.
  Qed.
End Conf.
