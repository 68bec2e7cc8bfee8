(** Proofs about HGS: releasing sprouts. *)
From Verif Require Import Spec Base VarModel VarProofs HgsModel HgsSpec HgsProofs HgsTrimProofs.
From Coq Require Import QArith Lqa.
Local Open Scope nat_scope.

Lemma near_bool_iff md a b : near_bool md a b = true <-> near md a b.
Proof.
  unfold near_bool, near, closer_than. destruct a as [| |x], b as [| |y]; try (split; [discriminate | intros (x' & y' & X & Y & _); congruence]).
  destruct (Qlt_le_dec 0 md), (Qlt_le_dec (sqdist x y) (md * md)); cbn; (split; [try discriminate; intros _; eauto 6 | try reflexivity; intros (x' & y' & X & Y & Z1 & Z2); injection X as <-; injection Y as <-; exfalso; lra]).
Qed.

Section Rel.
  Variables drv draw : Type.
  Variable dnew : nat -> draw -> list vec -> option drv.
  Variable raw : Z -> Z -> Z -> Z -> Z.
  Variable C : config.
  Notation hgs := (hgs drv). Notation node := (node drv). Notation step_draws := (step_draws draw).
  Variable E : Prop.
  Variable good : drv -> Prop.
  Variable goodv : vec -> Prop.
  Hypothesis Hnew : forall lv d pop, (exists size, nth_error (population_sizes C) lv = Some size /\ length pop = Nat.max 1 size) -> Forall goodv pop -> wp E (of_option (dnew lv d pop)) good.
  Hypothesis Hmut : forall sel rnd rate v, goodv v -> wp E (of_option (mutate raw sel rnd rate v (dims C))) goodv.
  Hypothesis Hcfg : E \/ (max_level C <= 2 /\ 3 <= length (metaepoch_lens C) /\ 3 <= length (min_dists C) /\ 3 <= length (population_sizes C) /\ 3 <= length (mutation_rates C)).
  Notation wf := (well_formed (max_level C)).
  Notation seeded := (seeded dnew raw C). Notation taken := (taken C). Notation chosen := (chosen C).
  Notation fresh n := (brand_new (level n) n).

  (** Every node that has run has a centre. *)
  Definition explored (s : hgs) : Prop := forall i n, node_at s i n -> population n = [] \/ center n <> Missing.

  Lemma candidate_ok s lv d : wf s -> explored s -> (E \/ lv < 3) ->
    wp E (candidate_redundant drv C s lv d) (fun b => b = taken s lv d).
  Proof.
    intros W X L. unfold candidate_redundant. eapply wp_bind; [apply wp_get; rewrite (wf_three _ _ W); exact L|]. intros ids Hids.
    destruct (wf_listed _ _ W _ _ Hids) as (_ & Lst).
    set (t := fun j => exists m, node_at s j m /\ population m <> [] /\ near (nth lv (min_dists C) 0%Q) (point d) (center m)).
    eapply wp_weaken.
    - apply (wp_fold E _ (fun don b => b = true <-> exists j, In j don /\ t j)).
      + split; [discriminate|]. intros (j & [] & _).
      + intros don j rest b El Hb. assert (Ij : In j ids) by (rewrite El; apply in_or_app; right; now left). apply Lst in Ij. destruct Ij as (m & Hm & Lm).
        unfold get at 1. unfold node_at in Hm. rewrite Hm. cbn [bind].
        assert (Ex : (exists k, In k (don ++ [j]) /\ t k) <-> (exists k, In k don /\ t k) \/ t j).
        { split.
          - intros (k & Ik & Tk). apply in_app_or in Ik. destruct Ik as [Ik|[<-|[]]]; [left; eauto | now right].
          - intros [(k & Ik & Tk)|Tj]; [exists k; split; [apply in_or_app; now left | exact Tk] | exists j; split; [apply in_or_app; right; now left | exact Tj]]. }
        destruct (Nat.eqb_spec (length (population m)) 0) as [Z|Z].
        * cbn [wp]. rewrite Ex, Hb. split; [now left|]. intros [Y|(m' & Hm' & Pm' & _)]; [exact Y|]. assert (m' = m) by (unfold node_at in Hm'; congruence). subst. exfalso. apply Pm'. now apply length_zero_iff_nil.
        * eapply wp_bind; [apply wp_get; destruct Hcfg as [Y|Y]; [now left | destruct L as [L|L]; [now left | right; lia]]|]. intros md Hmd.
          eapply wp_bind.
          { apply wp_redundant. right. split; [discriminate|]. destruct (X j m Hm) as [Y|Y]; [rewrite Y in Z; cbn in Z; lia | exact Y]. }
          intros r Hr. cbn [wp]. rewrite Ex, orb_true_iff, Hb, Hr. apply or_iff_compat_l. unfold t. rewrite (nth_error_nth _ _ 0%Q Hmd). split.
          -- intros Y. exists m. split; [exact Hm|]. split; [intros F; rewrite F in Z; cbn in Z; lia | exact Y].
          -- intros (m' & Hm' & _ & Y). assert (m' = m) by (unfold node_at in Hm'; congruence). now subst.
    - intros b Hb. apply eq_true_iff_eq. rewrite Hb. unfold HgsSpec.taken. rewrite existsb_exists. split.
      + intros (j & Ij & (m & Hm & Pm & Nm)). apply Lst in Ij. destruct Ij as (m' & Hm' & Lm). assert (m' = m) by (unfold node_at in *; congruence). subst m'.
        exists m. split; [eapply nth_error_In; exact Hm|]. rewrite (proj2 (Nat.eqb_eq _ _) Lm). cbn [andb].
        change (At (map inject_Z d)) with (point d). rewrite (proj2 (near_bool_iff _ _ _) Nm). rewrite andb_true_r. apply negb_true_iff. apply Nat.eqb_neq. intros F. apply Pm. now apply length_zero_iff_nil.
      + intros (m & Im & Hm). apply andb_true_iff in Hm. destruct Hm as (Hm & Nm). apply andb_true_iff in Hm. destruct Hm as (Lm & Pm). apply Nat.eqb_eq in Lm. apply negb_true_iff in Pm. apply Nat.eqb_neq in Pm.
        apply In_nth_error in Im. destruct Im as (j & Hj). exists j. split; [apply Lst; exists m; auto|]. exists m. split; [exact Hj|]. split; [intros F; rewrite F in Pm; cbn in Pm; lia | now apply near_bool_iff].
  Qed.

  Lemma population_from_delegate_ok M d size rate : goodv d ->
    wp E (population_from_delegate raw C M d size rate) (fun pop => exists mutants, pop = d :: mutants /\ length pop = Nat.max 1 size /\ Forall goodv pop /\
      Forall (fun v => exists sel rnd, mutate raw sel rnd rate d (dims C) = Some v) mutants).
  Proof.
    intros G. unfold population_from_delegate. eapply wp_weaken.
    - apply (wp_fold E _ (fun don pop => exists mutants, pop = d :: mutants /\ length mutants = length don /\ Forall goodv pop /\ Forall (fun v => exists sel rnd, mutate raw sel rnd rate d (dims C) = Some v) mutants)).
      + exists []. repeat split; auto.
      + intros don k rest pop El (mutants & -> & Lm & Gp & Fm).
        destruct (mutate raw (fst (M k)) (snd (M k)) rate d (dims C)) as [v|] eqn:Em; [|specialize (Hmut (fst (M k)) (snd (M k)) rate d G); rewrite Em in Hmut; exact Hmut].
        pose proof (Hmut (fst (M k)) (snd (M k)) rate d G) as Gv. rewrite Em in Gv. cbn [of_option wp] in Gv. cbn [of_option bind wp app].
        exists (mutants ++ [v]). split; [reflexivity|]. split; [rewrite !app_length; cbn; lia|]. split.
        * inversion Gp; subst. constructor; [assumption|]. apply Forall_app. auto.
        * apply Forall_app. split; [exact Fm|]. constructor; [eauto | constructor].
    - intros pop (mutants & -> & Lm & Gp & Fm). exists mutants. rewrite seq_length in Lm. split; [reflexivity|]. split; [cbn [length]; rewrite Lm; lia|]. auto.
  Qed.

  (** ---- growth ---- *)
  Record grown (s s' : hgs) : Prop := {
    g_old : forall i n, node_at s i n -> exists ks, node_at s' i (with_sprouts n (sprouts n ++ ks));
    g_new : forall i n', node_at s' i n' -> length (nodes s) <= i -> fresh n' /\ good (driver n');
    g_len : length (nodes s) <= length (nodes s');
    g_rest : hcost s' = hcost s /\ min_progress_ratio s' = min_progress_ratio s
  }.
  Lemma with_sprouts_id (n : node) : with_sprouts n (sprouts n ++ []) = n.
  Proof. destruct n. cbn. now rewrite app_nil_r. Qed.
  Lemma grown_refl s : grown s s.
  Proof.
    constructor; auto.
    - intros i n H. exists []. now rewrite with_sprouts_id.
    - intros i n H L. exfalso. assert (i < length (nodes s)) by (apply nth_error_Some; unfold node_at in H; congruence). lia.
  Qed.

  Lemma grown_taken s s' lv d : grown s s' -> taken s' lv d = taken s lv d.
  Proof.
    intros G. apply eq_true_iff_eq. unfold HgsSpec.taken. rewrite !existsb_exists. split; intros (m & Im & Hm); apply In_nth_error in Im; destruct Im as (j & Hj).
    - destruct (Nat.lt_ge_cases j (length (nodes s))) as [L|L].
      + destruct (nth_error (nodes s) j) as [m0|] eqn:E0; [|apply nth_error_None in E0; lia]. destruct (g_old _ _ G j m0 E0) as (ks & Hk). unfold node_at in Hk. rewrite Hj in Hk. injection Hk as ->.
        exists m0. split; [eapply nth_error_In; exact E0 | exact Hm].
      + destruct (g_new _ _ G j m Hj L) as ((_ & _ & _ & _ & P & _) & _). rewrite P in Hm. cbn in Hm. rewrite andb_false_r in Hm. discriminate.
    - destruct (g_old _ _ G j m Hj) as (ks & Hk). exists (with_sprouts m (sprouts m ++ ks)). split; [eapply nth_error_In; exact Hk | exact Hm].
  Qed.
  Lemma grown_alive s s' i : grown s s' -> i < length (nodes s) -> is_alive s' i = is_alive s i.
  Proof.
    intros G L. unfold is_alive. destruct (nth_error (nodes s) i) as [n|] eqn:X; [|apply nth_error_None in X; lia]. destruct (g_old _ _ G i n X) as (ks & Hk). unfold node_at in Hk. rewrite Hk. reflexivity.
  Qed.
  Lemma grown_explored s s' : grown s s' -> explored s -> explored s'.
  Proof.
    intros G X i n' H. destruct (Nat.lt_ge_cases i (length (nodes s))) as [L|L].
    - destruct (nth_error (nodes s) i) as [n|] eqn:Y; [|apply nth_error_None in Y; lia]. destruct (g_old _ _ G i n Y) as (ks & Hk). unfold node_at in *. rewrite H in Hk. injection Hk as ->. cbn. now apply (X i n).
    - left. now destruct (g_new _ _ G i n' H L) as ((_ & _ & _ & _ & P & _) & _).
  Qed.

  (** ---- adding one node ---- *)
  Definition added (s : hgs) (i : nat) (n : node) (ids : list nat) (sprout : node) : hgs :=
    {| nodes := set_nth i (add_sprout drv n (length (nodes s))) (nodes s) ++ [sprout];
       level_nodes := set_nth (S (level n)) (ids ++ [length (nodes s)]) (level_nodes s); hcost := hcost s; min_progress_ratio := min_progress_ratio s |}.

  Lemma added_at s i n ids sp j m : node_at s i n ->
    (node_at (added s i n ids sp) j m <-> (j = length (nodes s) /\ m = sp) \/ (j = i /\ m = with_sprouts n (sprouts n ++ [length (nodes s)])) \/ (j <> i /\ node_at s j m)).
  Proof.
    intros Hi. assert (Li : i < length (nodes s)) by (apply nth_error_Some; unfold node_at in Hi; congruence).
    unfold node_at. cbn. destruct (Nat.lt_ge_cases j (length (nodes s))) as [L|L].
    - rewrite nth_error_app1 by (rewrite set_nth_length; exact L). rewrite nth_error_set_nth. destruct (Nat.eqb_spec i j) as [<-|Ne].
      + unfold node_at in Hi. rewrite Hi. split; [intros H; injection H as <-; right; left; auto|]. intros [(X & _)|[(_ & ->)|(X & _)]]; [lia | reflexivity | congruence].
      + split; [intros H; right; right; auto|]. intros [(X & _)|[(X & _)|(_ & H)]]; [lia | congruence | exact H].
    - rewrite nth_error_app2 by (rewrite set_nth_length; exact L). rewrite set_nth_length. destruct (Nat.eq_dec j (length (nodes s))) as [->|Ne].
      + rewrite Nat.sub_diag. cbn. split; [intros H; injection H as <-; now left|]. intros [(_ & ->)|[(X & _)|(_ & X)]]; [reflexivity | lia|].
        assert (length (nodes s) < length (nodes s)) by (apply nth_error_Some; congruence). lia.
      + split.
        * intros H. assert (Y : j - length (nodes s) < length [sp]) by (apply nth_error_Some; congruence). cbn in Y. lia.
        * intros [(X & _)|[(X & _)|(_ & X)]]; [congruence | lia|]. assert (j < length (nodes s)) by (apply nth_error_Some; congruence). lia.
  Qed.

  Lemma sorted_snoc l k : StronglySorted lt l -> (forall i, In i l -> i < k) -> StronglySorted lt (l ++ [k]).
  Proof.
    induction 1 as [|a l S IH F]; cbn; intros H; [repeat constructor|]. constructor; [apply IH; auto|]. apply Forall_app. split; [exact F|]. constructor; [apply H; now left | constructor].
  Qed.

  Lemma added_wf s i n ids sp : wf s -> node_at s i n -> level n < max_level C -> nth_error (level_nodes s) (S (level n)) = Some ids -> brand_new (S (level n)) sp -> wf (added s i n ids sp).
  Proof.
    intros W Hi Lm Hids Bn. assert (A := fun j m => added_at s i n ids sp j m Hi). set (k := length (nodes s)) in *. destruct Bn as (_ & _ & Lsp & _ & _ & Ssp & _).
    assert (Lk : forall j m, node_at s j m -> j < k) by (intros j m H; apply nth_error_Some; unfold node_at in H; congruence).
    assert (L3 : S (level n) < 3) by (rewrite <- (wf_three _ _ W); apply nth_error_Some; congruence).
    assert (Up : forall j m, node_at s j m -> exists m', node_at (added s i n ids sp) j m' /\ level m' = level m /\ forall x, In x (sprouts m) -> In x (sprouts m')).
    { intros j m H. destruct (Nat.eq_dec j i) as [->|Ne].
      - assert (m = n) by (unfold node_at in *; congruence). subst. eexists. split; [apply A; right; left; auto|]. split; [reflexivity|]. intros x Hx. cbn. apply in_or_app. now left.
      - exists m. split; [apply A; auto|]. auto. }
    constructor.
    - destruct (wf_root _ _ W) as (r & Hr & Lr). destruct (Up 0 r Hr) as (r' & Hr' & Lr' & _). exists r'. split; [exact Hr' | congruence].
    - cbn. rewrite set_nth_length. apply (wf_three _ _ W).
    - intros l ids' Hl. cbn in Hl. rewrite nth_error_set_nth in Hl.
      assert (Old : forall j, (exists m, node_at (added s i n ids sp) j m /\ level m = l) <-> (j = k /\ l = S (level n)) \/ (exists m, node_at s j m /\ level m = l)).
      { intros j. split.
        - intros (m & Hm & Lv). apply A in Hm. destruct Hm as [(-> & ->)|[(-> & ->)|(_ & Hm)]]; [left; split; congruence | right; exists n; auto | right; eauto].
        - intros [(-> & ->)|(m & Hm & Lv)]; [exists sp; split; [apply A; auto | exact Lsp]|]. destruct (Up j m Hm) as (m' & Hm' & Lv' & _). exists m'. split; [exact Hm' | congruence]. }
      destruct (Nat.eqb_spec (S (level n)) l) as [<-|Ne].
      + rewrite Hids in Hl. injection Hl as <-. destruct (wf_listed _ _ W _ _ Hids) as (So & Lst). split.
        * apply sorted_snoc; [exact So|]. intros x Hx. apply Lst in Hx. destruct Hx as (m & Hm & _). eapply Lk; exact Hm.
        * intros j. rewrite Old, in_app_iff, Lst. cbn. split; [intros [X|[<-|[]]]; [now right | left; auto] | intros [(-> & _)|X]; [right; now left | now left]].
      + destruct (wf_listed _ _ W _ _ Hl) as (So & Lst). split; [exact So|]. intros j. rewrite Old, Lst. split; [now right | intros [(_ & X)|X]; [congruence | exact X]].
    - intros j m Hm. apply A in Hm. destruct Hm as [(-> & ->)|[(-> & ->)|(_ & Hm)]]; [rewrite Lsp; lia | cbn; now apply (wf_levels _ _ W i) | now apply (wf_levels _ _ W j)].
    - intros j m Hm Pos. apply A in Hm.
      assert (Old : forall m0, node_at s j m0 -> level m = level m0 -> exists p mp, node_at (added s i n ids sp) p mp /\ p < j /\ In j (sprouts mp) /\ level m = S (level mp) /\ forall q m', node_at (added s i n ids sp) q m' -> In j (sprouts m') -> q = p).
      { intros m0 H0 L0. destruct (wf_parent _ _ W j m0 H0 Pos) as (p & mp & Hp & Lt & Ip & Lp & Un). destruct (Up p mp Hp) as (mp' & Hp' & Lp' & Ip'). exists p, mp'. split; [exact Hp'|]. split; [exact Lt|]. split; [auto|]. split; [congruence|].
        intros q mq Hq Iq. apply A in Hq. destruct Hq as [(-> & ->)|[(-> & ->)|(_ & Hq)]].
        - rewrite Ssp in Iq. destruct Iq.
        - cbn in Iq. apply in_app_or in Iq. destruct Iq as [Iq|[Iq|[]]]; [eapply Un; eassumption|]. specialize (Lk j m0 H0). lia.
        - eapply Un; eassumption. }
      destruct Hm as [(-> & ->)|[(-> & ->)|(_ & Hm)]].
      + exists i, (with_sprouts n (sprouts n ++ [k])). split; [apply A; right; left; auto|]. split; [eapply Lk; exact Hi|]. split; [cbn; apply in_or_app; right; now left|]. split; [exact Lsp|].
        intros q mq Hq Iq. apply A in Hq. destruct Hq as [(-> & ->)|[(-> & ->)|(_ & Hq)]]; [rewrite Ssp in Iq; destruct Iq | reflexivity|].
        destruct (wf_sprouts _ _ W q mq Hq) as (_ & R). specialize (R k Iq). unfold k in R. lia.
      + apply (Old n Hi). reflexivity.
      + apply (Old m Hm). reflexivity.
    - intros p m Hm. cbn [nodes added]. rewrite app_length, set_nth_length. cbn [length]. fold k. apply A in Hm. destruct Hm as [(-> & ->)|[(-> & ->)|(_ & Hm)]].
      + rewrite Ssp. split; [constructor | intros x []].
      + destruct (wf_sprouts _ _ W i n Hi) as (ND & R). cbn. split.
        * apply NoDup_app_disj; [exact ND | constructor; [intros [] | constructor]|]. intros x Hx [<-|[]]. specialize (R k Hx). unfold k in R. lia.
        * intros x Hx. apply in_app_or in Hx. destruct Hx as [Hx|[<-|[]]]; [specialize (R x Hx); fold k in R; lia|]. specialize (Lk i n Hi). lia.
      + destruct (wf_sprouts _ _ W p m Hm) as (ND & R). split; [exact ND|]. intros x Hx. specialize (R x Hx). fold k in R. lia.
  Qed.

  Lemma added_grown s i n ids sp : node_at s i n -> brand_new (S (level n)) sp -> good (driver sp) -> grown s (added s i n ids sp).
  Proof.
    intros Hi Bn G. assert (A := fun j m => added_at s i n ids sp j m Hi). constructor.
    - intros j m Hm. destruct (Nat.eq_dec j i) as [->|Ne].
      + assert (m = n) by (unfold node_at in *; congruence). subst. exists [length (nodes s)]. apply A. right. left. auto.
      + exists []. rewrite with_sprouts_id. apply A. auto.
    - intros j m Hm L. apply A in Hm. assert (Lt : forall x y, node_at s x y -> x < length (nodes s)) by (intros x y H; apply nth_error_Some; unfold node_at in H; congruence).
      destruct Hm as [(-> & ->)|[(-> & ->)|(_ & Hm)]]; [| specialize (Lt i n Hi); lia | specialize (Lt j m Hm); lia]. split; [|exact G].
      replace (level sp) with (S (level n)) by (destruct Bn as (_ & _ & X & _); auto). exact Bn.
    - cbn. rewrite app_length, set_nth_length. lia.
    - auto.
  Qed.

  Lemma grown_trans s1 s2 s3 : grown s1 s2 -> grown s2 s3 -> (forall i n, node_at s2 i n -> length (nodes s1) <= i -> node_at s3 i n) -> grown s1 s3.
  Proof.
    intros G1 G2 Keep. constructor.
    - intros i n H. destruct (g_old _ _ G1 i n H) as (k1 & H1). destruct (g_old _ _ G2 i _ H1) as (k2 & H2). exists (k1 ++ k2). cbn in H2. rewrite app_assoc. exact H2.
    - intros i n H L. destruct (Nat.lt_ge_cases i (length (nodes s2))) as [L2|L2].
      + destruct (nth_error (nodes s2) i) as [m|] eqn:X; [|apply nth_error_None in X; lia]. specialize (Keep i m X L). assert (m = n) by (unfold node_at in *; congruence). subst. now apply (g_new _ _ G1 i).
      + now apply (g_new _ _ G2 i).
    - pose proof (g_len _ _ G1). pose proof (g_len _ _ G2). lia.
    - destruct (g_rest _ _ G1), (g_rest _ _ G2). split; congruence.
  Qed.
  Lemma new_node_ok lv d pop : (exists size, nth_error (population_sizes C) lv = Some size /\ length pop = Nat.max 1 size) -> Forall goodv pop -> (E \/ lv < 3) -> wp E (new_node drv draw dnew C lv d pop) (fun n => brand_new lv n /\ good (driver n) /\ dnew lv d pop = Some (driver n)).
  Proof.
    intros N G L. unfold new_node. pose proof (Hnew lv d pop N G) as H. destruct (dnew lv d pop) as [dr|]; [|exact H]. cbn [of_option bind]. cbn in H.
    eapply wp_bind; [apply wp_get; destruct Hcfg as [X|X]; [now left | destruct L; [now left | right; lia]]|]. intros len _. cbn. unfold brand_new. cbn. repeat split; auto.
  Qed.

  (** ---- the loop over the delegates of one node ---- *)
  Lemma seeded_keep s s' lv k d : (forall n, node_at s k n -> node_at s' k n) -> seeded s lv k d -> seeded s' lv k d.
  Proof. intros K (n & dr & mu & size & rate & H & R). exists n, dr, mu, size, rate. split; [now apply K | exact R]. Qed.

  Lemma release_loop_ok D i ds : forall r s n, wf s -> explored s -> node_at s i n -> level n < max_level C -> Forall goodv ds ->
    wp E (release_loop drv draw dnew raw C D i ds r s) (fun s' => wf s' /\ grown s s' /\ (forall j m, j <> i -> node_at s j m -> node_at s' j m) /\
      exists ks, node_at s' i (with_sprouts n (sprouts n ++ ks)) /\
        Forall2 (seeded s' (S (level n))) ks (firstn (Nat.min (sproutiveness C - r) (max_sprouts_no C - alive_sprouts_of s n)) (filter (fun d => negb (taken s (S (level n)) d)) ds))).
  Proof.
    induction ds as [|d ds IH]; intros r s n W X Hi Lm Gd; cbn [release_loop].
    - cbn. split; [exact W|]. split; [apply grown_refl|]. split; [auto|]. exists []. rewrite with_sprouts_id. split; [exact Hi|]. cbn. rewrite firstn_nil. constructor.
    - inversion Gd as [|? ? Gd1 Gd2]; subst. unfold get at 1. unfold node_at in Hi. rewrite Hi. cbn [bind].
      change (alive_sprouts drv s n) with (alive_sprouts_of s n).
      destruct (Nat.leb_spec (sproutiveness C) r) as [Lr|Lr]; cbn [orb].
      { cbn [wp]. split; [exact W|]. split; [apply grown_refl|]. split; [auto|]. exists []. rewrite with_sprouts_id. split; [exact Hi|]. replace (sproutiveness C - r) with 0 by lia. cbn [Nat.min firstn]. constructor. }
      destruct (Nat.leb_spec (max_sprouts_no C) (alive_sprouts_of s n)) as [La|La].
      { cbn [wp]. split; [exact W|]. split; [apply grown_refl|]. split; [auto|]. exists []. rewrite with_sprouts_id. split; [exact Hi|]. replace (max_sprouts_no C - alive_sprouts_of s n) with 0 by lia. rewrite Nat.min_0_r. cbn [firstn]. constructor. }
      assert (L3 : E \/ S (level n) < 3) by (destruct Hcfg as [Y|Y]; [now left | right; lia]).
      eapply wp_bind; [apply candidate_ok; assumption|]. intros tk Htk. cbn [filter]. rewrite <- Htk. destruct tk; cbn [negb].
      { apply IH; assumption. }
      eapply wp_bind; [apply wp_get; destruct Hcfg as [Y|Y]; [now left | right; lia]|]. intros size Hsize.
      eapply wp_bind; [apply wp_get; destruct Hcfg as [Y|Y]; [now left | right; lia]|]. intros rate Hrate.
      eapply wp_bind; [apply population_from_delegate_ok; exact Gd1|]. intros pop (mutants & Ep & Lp & Gp & Fm).
      eapply wp_bind; [apply new_node_ok; [exists size; split; [exact Hsize | exact Lp] | exact Gp | exact L3]|]. intros sp (Bn & Gs & Dn).
      eapply wp_bind; [apply wp_get; rewrite (wf_three _ _ W); exact L3|]. intros ids Hids.
      fold (added s i n ids sp). set (s1 := added s i n ids sp). set (k := length (nodes s)).
      assert (W1 : wf s1) by (apply added_wf; assumption). assert (G1 : grown s s1) by (apply added_grown; assumption).
      assert (A := fun j m => added_at s i n ids sp j m Hi). fold s1 in A. fold k in A.
      assert (H1 : node_at s1 i (with_sprouts n (sprouts n ++ [k]))) by (apply A; right; left; auto).
      assert (Li : i < k) by (apply nth_error_Some; congruence).
      assert (Al : alive_sprouts_of s1 (with_sprouts n (sprouts n ++ [k])) = S (alive_sprouts_of s n)).
      { unfold alive_sprouts_of. cbn [sprouts with_sprouts]. rewrite filter_app, app_length. cbn [filter].
        assert (Ak : is_alive s1 k = true) by (unfold is_alive; assert (Y : node_at s1 k sp) by (apply A; auto); unfold node_at in Y; rewrite Y; now destruct Bn). rewrite Ak. cbn [length].
        rewrite (filter_ext_In (is_alive s1) (is_alive s) (sprouts n)); [lia|]. intros x Hx. apply grown_alive; [exact G1|]. now apply (wf_sprouts _ _ W i n Hi). }
      eapply wp_weaken.
      + apply (IH (S r) s1 (with_sprouts n (sprouts n ++ [k]))); [exact W1 | now apply (grown_explored s) | exact H1 | exact Lm | exact Gd2].
      + intros s' (W' & G' & Keep & ks & Hi' & F). cbn [level with_sprouts sprouts] in *.
        assert (Kp : forall j m, j <> i -> node_at s1 j m -> node_at s' j m) by exact Keep.
        split; [exact W'|]. split.
        { apply (grown_trans s s1 s' G1 G'). intros j m Hm L. apply Keep; [fold k in L; lia | exact Hm]. }
        split; [intros j m Ne Hm; apply Keep; [exact Ne | apply A; auto]|].
        exists (k :: ks). split.
        { replace (sprouts n ++ k :: ks) with ((sprouts n ++ [k]) ++ ks) by (rewrite <- app_assoc; reflexivity). exact Hi'. }
        assert (Eq : Nat.min (sproutiveness C - r) (max_sprouts_no C - alive_sprouts_of s n) = S (Nat.min (sproutiveness C - S r) (max_sprouts_no C - alive_sprouts_of s1 (with_sprouts n (sprouts n ++ [k]))))) by (rewrite Al; lia).
        rewrite Eq. cbn [firstn]. constructor.
        * assert (Sk : node_at s' k sp) by (apply Keep; [lia | apply A; auto]). exists sp, (in_constructor D k), mutants, size, rate. split; [exact Sk|]. split; [exact Bn|]. rewrite <- Ep. auto.
        * rewrite (filter_ext (fun d => negb (taken s (S (level n)) d)) (fun d => negb (taken s1 (S (level n)) d))); [exact F|]. intros y. now rewrite (grown_taken s s1 (S (level n)) y G1).
  Qed.

  (** ---- the recursion ---- *)
  Lemma reached_start (s : hgs) r i : reached s r i -> exists n, node_at s r n /\ ripe n = true.
  Proof. induction 1; eauto. Qed.
  Lemma reached_level (s : hgs) r i : wf s -> reached s r i -> i = r \/ (forall n m, node_at s r n -> node_at s i m -> level n < level m).
  Proof.
    intros W. induction 1 as [n Hn Rn|p m i n Hp IH Hm Ii Hi Ri]; [now left|]. right. intros a b Ha Hb.
    assert (Pos : 0 < i) by (apply (wf_sprouts _ _ W p m Hm); exact Ii).
    destruct (wf_parent _ _ W i b Hb Pos) as (q & mq & Hq & _ & Iq & Lq & Un). assert (p = q) by (eapply Un; eassumption). subst q. assert (mq = m) by (unfold node_at in *; congruence). subst mq.
    destruct IH as [->|IH]; [assert (m = a) by (unfold node_at in *; congruence); subst; lia | specialize (IH a m Ha Hm); lia].
  Qed.
  Lemma reached_unique (s : hgs) a b i na nb : wf s -> node_at s a na -> node_at s b nb -> level na = level nb -> reached s a i -> reached s b i -> a = b.
  Proof.
    intros W Ha Hb L Ra. revert b nb Hb L. induction Ra as [n Hn Rn|p m i n Hp IH Hm Ii Hi Ri]; intros b nb Hb L Rb.
    - destruct (reached_level s b a W Rb) as [X|X]; [exact X|]. specialize (X nb na Hb Ha). lia.
    - assert (Ri' : reached s a i) by (eapply reached_sprout; eassumption).
      inversion Rb as [n' Hn' Rn'|p' m' i' n' Hp' Hm' Ii' Hi' Rn']; subst.
      + destruct (reached_level s a i W Ri') as [X|X]; [auto|]. specialize (X na nb Ha Hb). lia.
      + assert (Pos : 0 < i) by (apply (wf_sprouts _ _ W p m Hm); exact Ii).
        destruct (wf_parent _ _ W i n Hi Pos) as (q & mq & Hq & _ & Iq & Lq & Un). assert (p = q) by (eapply Un; eassumption). assert (p' = q) by (eapply Un; eassumption). subst.
        eapply IH; eassumption.
  Qed.
  Lemma reached_split (s : hgs) r i n : node_at s r n -> reached s r i -> i = r \/ exists k, In k (sprouts n) /\ reached s k i.
  Proof.
    intros Hn. induction 1 as [m Hm Rm|p m i ni Hp IH Hm Ii Hi Ri]; [now left|]. right. destruct IH as [->|(k & Ik & Rk)].
    - assert (m = n) by (unfold node_at in *; congruence). subst. exists i. split; [exact Ii|]. eapply reached_self; eassumption.
    - exists k. split; [exact Ik|]. eapply reached_sprout; eassumption.
  Qed.
  Lemma reached_join (s : hgs) r n k i : node_at s r n -> ripe n = true -> In k (sprouts n) -> reached s k i -> reached s r i.
  Proof.
    intros Hn Rn Ik. induction 1 as [m Hm Rm|p m i ni Hp IH Hm Ii Hi Ri].
    - eapply reached_sprout; [eapply reached_self; eassumption | exact Hn | exact Ik | exact Hm | exact Rm].
    - eapply reached_sprout; eassumption.
  Qed.
  Lemma reached_in (s : hgs) r i : reached s r i -> exists n, node_at s i n /\ ripe n = true.
  Proof. destruct 1; eauto. Qed.

  (** What has happened to node [j] of [s0] when its turn has come. *)
  Definition done (s0 s : hgs) (j : nat) : Prop :=
    forall n, node_at s0 j n -> exists ks, node_at s j (with_sprouts n (sprouts n ++ ks)) /\ Forall2 (seeded s (S (level n))) ks (chosen s0 n).

  Lemma release_ok D (s0 : hgs) : wf s0 -> explored s0 -> (forall i n, node_at s0 i n -> Forall goodv (delegates n)) ->
    forall fuel s i n, node_at s0 i n -> max_level C < level n + fuel -> wf s -> grown s0 s -> (forall j m, reached s0 i j -> node_at s0 j m -> node_at s j m) ->
    wp E (release_new_sprouts drv draw dnew raw C fuel D s i) (fun s' => wf s' /\ grown s0 s' /\
      (forall j m, node_at s j m -> ~ reached s0 i j -> node_at s' j m) /\ (forall j, reached s0 i j -> done s0 s' j)).
  Proof.
    intros W0 X0 Gd. induction fuel as [|fuel IH]; intros s i n Hn0 Lf W G Keep; cbn [release_new_sprouts].
    - exfalso. destruct (wf_levels _ _ W0 i n Hn0). lia.
    - destruct (g_old _ _ G i n Hn0) as (ks0 & Hn). unfold get at 1. unfold node_at in Hn. rewrite Hn. cbn [bind ripe with_sprouts sprouts]. destruct (ripe n) eqn:Rn.
      2:{ cbn [wp]. split; [exact W|]. split; [exact G|]. split; [auto|]. intros j R. exfalso. destruct (reached_start s0 i j R) as (m & Hm & Rm). assert (m = n) by (unfold node_at in *; congruence). congruence. }
      assert (Rii : reached s0 i i) by (eapply reached_self; eassumption).
      assert (Hi : node_at s i n) by (now apply Keep). unfold node_at in Hi. rewrite Hi in Hn. injection Hn as Hn. assert (Sp : sprouts n ++ ks0 = sprouts n) by (rewrite Hn at 2; reflexivity). rewrite Sp. clear Hn Sp ks0.
      destruct (wf_sprouts _ _ W0 i n Hn0) as (ND & Rg).
      assert (Spr : forall k, In k (sprouts n) -> exists m, node_at s0 k m /\ level m = S (level n)).
      { intros k Ik. specialize (Rg k Ik). destruct (nth_error (nodes s0) k) as [m|] eqn:Y; [|apply nth_error_None in Y; lia]. exists m. split; [exact Y|].
        destruct (wf_parent _ _ W0 k m Y (proj1 Rg)) as (p & mp & Hp & _ & Ip & Lp & Un). assert (i = p) by (eapply Un; eassumption). subst p. assert (mp = n) by (unfold node_at in *; congruence). now subst. }
      assert (Ni : forall k, In k (sprouts n) -> ~ reached s0 k i).
      { intros k Ik R. destruct (Spr k Ik) as (m & Hm & Lm). destruct (reached_level s0 k i W0 R) as [->|Y]; [assert (m = n) by (unfold node_at in *; congruence); subst; lia|]. specialize (Y m n Hm Hn0). lia. }
      eapply wp_bind.
      { apply (wp_fold E _ (fun don s1 => wf s1 /\ grown s0 s1 /\ (forall j m, node_at s j m -> (forall k, In k don -> ~ reached s0 k j) -> node_at s1 j m) /\ (forall k j, In k don -> reached s0 k j -> done s0 s1 j))).
        - split; [exact W|]. split; [exact G|]. split; [auto|]. intros k j [].
        - intros don k rest s1 El (W1 & G1 & F1 & D1). assert (Ik : In k (sprouts n)) by (rewrite El; apply in_or_app; right; now left).
          destruct (Spr k Ik) as (m & Hm & Lm).
          assert (Dis : forall k', In k' don -> forall j, reached s0 k j -> ~ reached s0 k' j).
          { intros k' Ik' j R R'. destruct (Spr k') as (m' & Hm' & Lm'); [rewrite El; apply in_or_app; now left|]. assert (k = k') by (eapply (reached_unique s0 k k' j); [exact W0 | exact Hm | exact Hm' | congruence | exact R | exact R']). subst k'.
            rewrite El in ND. apply NoDup_remove_2 in ND. apply ND. apply in_or_app. now left. }
          eapply wp_weaken.
          + apply (IH s1 k m Hm); [lia | exact W1 | exact G1|]. intros j mj Rj Hj. apply F1; [apply Keep; [eapply reached_join; eassumption | exact Hj]|]. intros k' Ik'. now apply Dis.
          + intros s2 (W2 & G2 & F2 & D2). split; [exact W2|]. split; [exact G2|]. split.
            * intros j mj Hj Nr. apply F2; [apply F1; [exact Hj|]|].
              -- intros k' Ik'. apply Nr. apply in_or_app. now left.
              -- apply Nr. apply in_or_app. right. now left.
            * intros k' j Ik' R. apply in_app_or in Ik'. destruct Ik' as [Ik'|[<-|[]]]; [|now apply D2].
              assert (Nk : ~ reached s0 k j) by (intros R'; exact (Dis k' Ik' j R' R)).
              intros mj Hj. destruct (D1 k' j Ik' R mj Hj) as (ks & Hks & Fk). exists ks. split; [now apply F2|].
              assert (New : forall x nx, node_at s1 x nx -> length (nodes s0) <= x -> node_at s2 x nx).
              { intros x nx Hx Lx. apply F2; [exact Hx|]. intros Rx. destruct (reached_in s0 k x Rx) as (y & Hy & _). assert (x < length (nodes s0)) by (apply nth_error_Some; unfold node_at in Hy; congruence). lia. }
              assert (Seeds : forall x d, seeded s1 (S (level mj)) x d -> seeded s2 (S (level mj)) x d).
              { intros x d Sx. eapply seeded_keep; [|exact Sx]. intros nx Hx. destruct Sx as (ny & dr & mu & size & rate & Hy & Bn & _). assert (ny = nx) by (unfold node_at in *; congruence). subst ny.
                destruct (Nat.lt_ge_cases x (length (nodes s0))) as [Lx|Lx]; [|now apply New].
                apply F2; [exact Hx|]. intros Rx. destruct (reached_in s0 k x Rx) as (y & Hy' & Ry). destruct (g_old _ _ G1 x y Hy') as (kx & Hkx). assert (nx = with_sprouts y (sprouts y ++ kx)) by (unfold node_at in *; congruence). subst nx. destruct Bn as (_ & Bn & _). cbn in Bn. congruence. }
              clear - Fk Seeds. induction Fk; constructor; auto. }
      intros s1 (W1 & G1 & F1 & D1).
      assert (H1 : node_at s1 i n) by (apply F1; [exact Hi | exact Ni]). unfold get at 1. unfold node_at in H1. rewrite H1. cbn [bind].
      change (alive_sprouts drv s1 n) with (alive_sprouts_of s1 n).
      assert (Al : alive_sprouts_of s1 n = alive_sprouts_of s0 n).
      { unfold alive_sprouts_of. f_equal. apply filter_ext_In. intros x Hx. apply grown_alive; [exact G1|]. now apply Rg. }
      assert (X1 : explored s1) by now apply (grown_explored s0).
      assert (Fin : forall s2, wf s2 -> grown s1 s2 -> (forall j m, j <> i -> node_at s1 j m -> node_at s2 j m) ->
         (exists ks, node_at s2 i (with_sprouts n (sprouts n ++ ks)) /\ Forall2 (seeded s2 (S (level n))) ks (chosen s0 n)) ->
         wf s2 /\ grown s0 s2 /\ (forall j m, node_at s j m -> ~ reached s0 i j -> node_at s2 j m) /\ (forall j, reached s0 i j -> done s0 s2 j)).
      { intros s2 W2 G2 K2 Own. assert (Li : i < length (nodes s0)) by (apply nth_error_Some; unfold node_at in Hn0; congruence).
        split; [exact W2|]. split; [apply (grown_trans s0 s1 s2 G1 G2); intros j m Hj Lj; apply K2; [lia | exact Hj]|]. split.
        - intros j m Hj Nr. apply K2; [intros ->; auto|]. apply F1; [exact Hj|]. intros k Ik R. apply Nr. eapply reached_join; eassumption.
        - intros j R. destruct (reached_split s0 i j n Hn0 R) as [->|(k & Ik & Rk)].
          + intros m Hm. assert (m = n) by (unfold node_at in *; congruence). subst m. exact Own.
          + intros m Hm. destruct (D1 k j Ik Rk m Hm) as (ks & Hks & Fk). exists ks. assert (Ne : j <> i) by (intros ->; exact (Ni k Ik Rk)). split; [now apply K2|].
            assert (Seeds : forall x d, seeded s1 (S (level m)) x d -> seeded s2 (S (level m)) x d).
            { intros x d Sx. eapply seeded_keep; [|exact Sx]. intros nx Hx. apply K2; [|exact Hx]. intros ->. destruct Sx as (ny & dr & mu & size & rate & Hy & Bn & _). assert (ny = n) by (unfold node_at in *; congruence). subst ny. destruct Bn as (_ & Bn & _). congruence. }
            clear - Fk Seeds. induction Fk; constructor; auto. }
      rewrite Al. destruct (Nat.ltb_spec (level n) (max_level C)) as [Ll|Ll]; cbn [andb].
      + destruct (Nat.ltb_spec (alive_sprouts_of s0 n) (max_sprouts_no C)) as [La|La].
        * eapply wp_weaken; [apply (release_loop_ok D i (delegates n) 0 s1 n W1 X1 H1 Ll); eapply Gd; exact Hn0|].
          intros s2 (W2 & G2 & K2 & ks & Hks & Fk). apply Fin; try assumption. exists ks. split; [exact Hks|]. unfold HgsSpec.chosen. rewrite (proj2 (Nat.ltb_lt _ _) Ll).
          rewrite Nat.sub_0_r, Al in Fk. rewrite (filter_ext (fun d => negb (taken s0 (S (level n)) d)) (fun d => negb (taken s1 (S (level n)) d))); [exact Fk|]. intros y. now rewrite (grown_taken s0 s1 (S (level n)) y G1).
        * cbn [wp]. apply Fin; [exact W1 | apply grown_refl | auto|]. exists []. rewrite with_sprouts_id. split; [exact H1|]. unfold HgsSpec.chosen. rewrite (proj2 (Nat.ltb_lt _ _) Ll).
          replace (max_sprouts_no C - alive_sprouts_of s0 n) with 0 by lia. rewrite Nat.min_0_r. constructor.
      + cbn [wp]. apply Fin; [exact W1 | apply grown_refl | auto|]. exists []. rewrite with_sprouts_id. split; [exact H1|]. unfold HgsSpec.chosen. rewrite (proj2 (Nat.ltb_ge _ _) Ll). constructor.
  Qed.
End Rel.
