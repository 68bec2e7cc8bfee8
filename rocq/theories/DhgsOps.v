(** The operations of distributed HGS that ask nodes and gather answers. *)
From Verif Require Import Spec Base VarModel VarProofs HgsModel HgsSpec HgsProofs DhgsModel DhgsSpec DhgsNet DhgsGather.
From Coq Require Import QArith Permutation.
Local Open Scope nat_scope.

Section Ops.
  Context {drv draw : Type}.
  Variable dnew : nat -> draw -> list vec -> drv.
  Variable dstep : draw -> drv -> drv.
  Variable dcost : drv -> Z.
  Variable dfinal : draw -> drv -> drv * list vec.
  Variable ddelegates : drv -> list vec.
  Variable hv_of : list vec -> Q.
  Variable EPSILON : Q.
  Variable C : config.
  Variable W : nat -> nat -> ndraws draw.
  Variable Wnew : nat -> draw.
  Notation system := (system drv).
  Notation node := (node drv).
  Notation receive := (receive drv draw dnew dstep dcost dfinal ddelegates hv_of EPSILON C W Wnew).
  Notation node_receive := (node_receive drv draw dnew dstep dcost dfinal ddelegates hv_of EPSILON C W Wnew).
  Notation sup_receive := (sup_receive C).
  Notation until := (until dnew dstep dcost dfinal ddelegates hv_of EPSILON C W Wnew).
  Notation shape := (shape dnew Wnew).
  Notation gather := (gather dnew dstep dcost dfinal ddelegates hv_of EPSILON C W Wnew).
  Notation sup c := (c_sup drv c). Notation actor c i := (c_nodes drv c i). Notation mail c a b := (c_mail drv c a b).
  Notation eff_ask := (effect_ask dnew dstep dcost dfinal ddelegates hv_of EPSILON C W Wnew).
  Notation eff_answer := (effect_answer dnew dstep dcost dfinal ddelegates hv_of EPSILON C W Wnew).
  Notation ran := (ran dstep dcost dfinal ddelegates hv_of C).
  Notation weighted_cost := (weighted_cost C).
  Notation node_metaepoch := (node_metaepoch drv draw dstep dcost dfinal ddelegates hv_of C).
  Notation node_trim := (node_trim drv EPSILON).
  Implicit Types (c : system) (ns : list node) (s : supervisor).

  (** No operation in progress. *)
  Definition calm c ns (R : nat -> Prop) : Prop := shape c ns R no_mail no_mail [] [] no_peer.

  Lemma ask_shape c ns R k p : calm c ns R ->
    shape (ask _ k p c) ns R no_mail no_mail [mk (Ext, k) p] [] no_peer /\ sup (ask _ k p c) = sup c /\
    (forall i, actor (ask _ k p c) i = actor c i) /\ answers (ask _ k p c) = answers c /\ visited (ask _ k p c) = visited c.
  Proof.
    intros [S1 S2 S3 S4 S5 S6 (S7 & S8 & S9)]. split; [|repeat split].
    assert (M : forall a b, mail (ask _ k p c) a b = mail c a b ++ if addr_eqb a Ext && addr_eqb b Sup then [mk (Ext, k) p] else []).
    { intros a b. unfold ask, put. cbn. destruct a; cbn; auto. destruct b; cbn; auto. }
    split; intros; rewrite ?M; cbn; rewrite ?app_nil_r; auto.
    - destruct (S1 i n H) as (b & V & Rb). exists b. split; auto. eapply view_same; [exact V|reflexivity|]. rewrite M. cbn. apply app_nil_r.
    - now rewrite S4.
    - split; [auto|split; [auto|]]. intros i. specialize (S9 i). unfold put. cbn. rewrite ?app_nil_r. auto.
  Qed.

  (** A request reaches the supervisor, which posts [out]. *)
  Lemma ask_until (P : system -> Prop) c ns R k p s' out : calm c ns R ->
    sup_receive (sup c) Ext (mk (Ext, k) p) = Ok (s', out) -> to Sup out = [] -> (forall j, length ns <= j -> to (Nd j) out = []) ->
    (forall c1, shape c1 ns R (fun j => to (Nd j) out) no_mail [] (to Ext out) no_peer -> sup c1 = s' ->
       (forall i n, nth_error ns i = Some n -> view dnew Wnew c i n [] true -> actor c1 i = actor c i) ->
       answers c1 = answers c -> visited c1 = visited c -> until (fun c' => answers c' = answers c) P c1) ->
    until (fun c' => answers c' = answers c) P (ask _ k p c).
  Proof.
    intros Cm Er Os Oj H. destruct (ask_shape c ns R k p Cm) as (Sh & A1 & A2 & A3 & A4).
    eapply drift; [exact Sh| | |].
    - intros c1 (_ & K & _). congruence.
    - exists 0, 0. right. right. left. discriminate.
    - intros c1 o Sh1 (K1 & K2 & K3 & K4) Rl. destruct Rl as [i n m q Hn V Hr|i m q Hi Hr Hm|m q Hx|m q Hx|i j m q Hx]; try discriminate.
      injection Hx as <- <-.
      rewrite <- A1, <- K1 in Er. edestruct eff_ask as (c2 & Ec & Sh2 & T1 & T2 & T3 & T4); [exact Sh1|reflexivity|exact Er|exact Os|exact Oj|].
      exists c2. split; [exact Ec|]. apply H; try congruence.
      + exact Sh2.
      + intros i n Hn V. rewrite T2. destruct (K4 i n Hn) as (E & _).
        * eapply view_same; [exact V|apply A2|]. unfold ask, put. cbn. now rewrite app_nil_r.
        * now rewrite E, A2.
  Qed.

  (** A question answered at once. *)
  Lemma answer_until (P : system -> Prop) c ns R ans a0 : shape c ns R no_mail no_mail [] [ans] no_peer -> answers c = a0 ->
    (forall c1, calm c1 ns R -> sup c1 = sup c -> answers c1 = a0 ++ [ans] -> visited c1 = visited c ->
      (forall i n, nth_error ns i = Some n -> view dnew Wnew c i n [] true -> actor c1 i = actor c i) -> P c1) ->
    until (fun c' => answers c' = a0) P c.
  Proof.
    intros Sh Ha H. eapply drift; [exact Sh| | |].
    - intros c1 (_ & K & _). congruence.
    - exists 0, 0. right. right. right. left. discriminate.
    - intros c1 o Sh1 (K1 & K2 & K3 & K4) Rl. destruct Rl as [i n m q Hn V Hr|i m q Hi Hr Hm|m q Hx|m q Hx|i j m q Hx]; try discriminate.
      injection Hx as <- <-. edestruct eff_answer as (c2 & Ec & Sh2 & T1 & T2 & T3 & T4); [exact Sh1|reflexivity|].
      exists c2. split; [exact Ec|]. apply until_now. apply H; try congruence; auto.
      intros i n Hn V. rewrite T2. now apply (K4 i n).
  Qed.

  (** What the supervisor knows of the nodes. *)
  Record inv s ns : Prop := {
    iv_nodes : s_nodes s = seq 0 (length ns);
    iv_levels : length (s_levels s) = 3;
    iv_listed : forall lv ids, nth_error (s_levels s) lv = Some ids -> NoDup ids /\ forall i, In i ids <-> exists n, nth_error ns i = Some n /\ level n = lv;
    iv_level : forall i n, nth_error ns i = Some n -> level n <= max_level C;
    iv_root : exists n, nth_error ns 0 = Some n /\ level n = 0;
    iv_sprouts : forall i n, nth_error ns i = Some n -> NoDup (sprouts n) /\
      forall j, In j (sprouts n) -> i < j /\ exists m, nth_error ns j = Some m /\ level m = S (level n);
    iv_closed : forall i n l, nth_error ns i = Some n -> level n = S l -> exists j m, nth_error ns j = Some m /\ level m = l;
    iv_flags : forall i n, nth_error ns i = Some n -> ripe n = negb (alive n);
    iv_ratios : S (max_level C) <= length (s_ratios s)
  }.
  Hypothesis Htop : max_level C <= 2.

  Definition keeps (n n' : node) : Prop := level n' = level n /\ sprouts n' = sprouts n /\ (ripe n = negb (alive n) -> ripe n' = negb (alive n')).
  Lemma inv_keep s s' ns ns' : inv s ns -> s_nodes s' = s_nodes s -> s_levels s' = s_levels s -> length (s_ratios s') = length (s_ratios s) ->
    length ns' = length ns -> (forall i n, nth_error ns i = Some n -> exists n', nth_error ns' i = Some n' /\ keeps n n') -> inv s' ns'.
  Proof.
    intros [I1 I2 I3 I4 I5 I6 I9 I7 I8] E1 E2 E3 E4 K.
    assert (B : forall i n', nth_error ns' i = Some n' -> exists n, nth_error ns i = Some n /\ keeps n n').
    { intros i n' H. assert (L : i < length ns) by (rewrite <- E4; apply nth_error_Some; congruence).
      destruct (nth_lt ns i L) as (n & Hn). exists n. split; auto. destruct (K i n Hn) as (n2 & H2 & K2). congruence. }
    split.
    - now rewrite E1, E4.
    - now rewrite E2.
    - rewrite E2. intros lv ids H. destruct (I3 lv ids H) as (N & M). split; auto. intros i. rewrite M. split.
      + intros (n & Hn & Hl). destruct (K i n Hn) as (n' & Hn' & (Kl & _)). exists n'. split; auto. congruence.
      + intros (n' & Hn' & Hl). destruct (B i n' Hn') as (n & Hn & (Kl & _)). exists n. split; auto. congruence.
    - intros i n' H. destruct (B i n' H) as (n & Hn & (Kl & _)). rewrite Kl. eauto.
    - destruct I5 as (n & Hn & Hl). destruct (K 0 n Hn) as (n' & Hn' & (Kl & _)). exists n'. split; auto. congruence.
    - intros i n' H. destruct (B i n' H) as (n & Hn & (Kl & Ks & _)). destruct (I6 i n Hn) as (N & M). rewrite Ks. split; auto.
      intros j Hj. destruct (M j Hj) as (L & m & Hm & Hlm). split; auto. destruct (K j m Hm) as (m' & Hm' & (Kl' & _)). exists m'. split; auto. congruence.
    - intros i n' l H Hl. destruct (B i n' H) as (n & Hn & (Kl & _)). rewrite Kl in Hl. destruct (I9 i n l Hn Hl) as (j & m & Hm & Lm).
      destruct (K j m Hm) as (m' & Hm' & (Kl' & _)). exists j, m'. split; auto. congruence.
    - intros i n' H. destruct (B i n' H) as (n & Hn & (_ & _ & Kf)). eauto.
    - now rewrite E3.
  Qed.

  Lemma inv_some s ns : inv s ns -> 0 < length ns.
  Proof. intros I. destruct (iv_root _ _ I) as (n & Hn & _). apply nth_error_Some. congruence. Qed.

  Definition fields s s' : Prop := s_nodes s' = s_nodes s /\ s_levels s' = s_levels s /\ s_cost s' = s_cost s /\ s_states s' = s_states s /\ s_ratios s' = s_ratios s.
  Lemma fields_refl s : fields s s. Proof. repeat split. Qed.
  Lemma fields_set s s0 k t : fields s0 s -> fields s0 (set_task s k t).
  Proof. intros H. exact H. Qed.

  Lemma get_Some {A} (l : list A) i x : nth_error l i = Some x -> get l i = Ok x.
  Proof. unfold get. now intros ->. Qed.
  Lemma task_set s k t t' : nth_error (s_tasks s) k = Some t -> nth_error (s_tasks (set_task s k t')) k = Some t'.
  Proof. intros H. cbn. now apply set_nth_at with t. Qed.
  Lemma task_new s t : nth_error (s_tasks (with_task s t)) (length (s_tasks s)) = Some t.
  Proof. cbn. rewrite nth_error_app2, Nat.sub_diag; auto. Qed.

  Lemma to_map_nodes ids (f : nat -> message) j : to (Nd j) (map (fun i => (Nd i, f i)) ids) = boxes (map (fun i => (i, f i)) ids) j.
  Proof. rewrite <- boxes_to, map_map. reflexivity. Qed.
  Lemma to_map_none ids (f : nat -> message) b : (forall i, b <> Nd i) -> to b (map (fun i => (Nd i, f i)) ids) = [].
  Proof.
    intros H. destruct b as [| |j]; [| |now destruct (H j)]; unfold to; induction ids as [|i l IH]; cbn; auto.
  Qed.
  Lemma boxes_out ids (f : nat -> message) N j : (forall i, In i ids -> i < N) -> N <= j -> boxes (map (fun i => (i, f i)) ids) j = [].
  Proof.
    intros H L. apply boxes_none. rewrite map_map. cbn. rewrite map_id. intros I. apply H in I. lia.
  Qed.

  (** The common part: ask, scatter, gather. *)
  Lemma operation (ids : list nat) (request : nat -> message) (work : nat -> node -> node -> message -> Prop)
    (G : list (nat * message) -> supervisor -> Prop) (F : list (nat * message) -> supervisor -> message -> Prop) c ns R k p s1 :
    NoDup ids -> ids <> [] -> (forall i, In i ids -> i < length ns) -> (forall i, is_release (request i) = false) ->
    (forall i a n, In i ids -> a_node _ a = Some n -> a_sup _ a = Some Sup ->
      exists a' n' m, node_receive i a Sup (request i) = Ok (a', [(Sup, m)]) /\ a_node _ a' = Some n' /\ a_sup _ a' = Some Sup /\
        work i n n' m /\ m_body m <> Done) ->
    calm c ns R ->
    sup_receive (sup c) Ext (mk (Ext, k) p) = Ok (s1, map (fun i => (Nd i, request i)) ids) -> G [] s1 ->
    (forall got s i n n' m, G got s -> nth_error ns i = Some n -> work i n n' m -> In i ids -> S (length got) < length ids ->
      exists s', sup_receive s (Nd i) m = Ok (s', []) /\ G (got ++ [(i, m)]) s') ->
    (forall got s i n n' m, G got s -> nth_error ns i = Some n -> work i n n' m -> In i ids -> S (length got) = length ids ->
      collected ids work ns (got ++ [(i, m)]) -> exists s' ans, sup_receive s (Nd i) m = Ok (s', [(Ext, ans)]) /\ F (got ++ [(i, m)]) s' ans) ->
    until (fun c' => answers c' = answers c)
      (fun c' => exists ns' got, gathered ids work ns ns' got /\ (exists ans, F got (sup c') ans /\ answers c' = answers c ++ [ans]) /\
         calm c' ns' (fun j => R j \/ In j ids) /\ visited c' = visited c) (ask _ k p c).
  Proof.
    intros H1 H2 H3 H4 H5 Cm Er G0 Hm Hl.
    eapply ask_until; [exact Cm|exact Er| | |].
    - apply to_map_none. discriminate.
    - intros j Hj. rewrite to_map_nodes. now apply boxes_out with (length ns).
    - intros c1 Sh Es _ Ea Ev. rewrite <- Ea. rewrite (to_map_none ids request Ext) in Sh by discriminate.
      eapply until_weaken; [eapply gather with (ids := ids) (request := request) (work := work) (G := G) (F := F) (ns0 := ns) (R := R)| |]; eauto.
      + eapply shape_ext; [exact Sh| | | |]; auto. intros i. apply to_map_nodes.
      + congruence.
      + intros c2 (ns' & got & Ga & (ans & Fa & Ea2) & Cm2 & Ev2). exists ns', got. split; [auto|split; [|split; [auto|congruence]]]. exists ans. split; auto.
  Qed.

  (* ------------------------------------------------------------------ metaepoch *)

  Lemma iterate_fold (ds : list draw) d : iterate (fun x d => Some (dstep x d)) ds d = Some (fold_left (fun d x => dstep x d) ds d).
  Proof. revert d. induction ds as [|x ds IH]; intros d; [reflexivity|]. cbn. apply IH. Qed.
  Lemma fold_left_map {A B D} (f : D -> B -> D) (g : A -> B) l d : fold_left f (map g l) d = fold_left (fun d x => f d (g x)) l d.
  Proof. revert d. induction l as [|x l IH]; intros d; [reflexivity|]. cbn. apply IH. Qed.

  (** The answer of a node: nothing when it is dead or its metaepochs are empty. *)
  Definition metaepoch_data (n n' : node) : option (nat * Z) :=
    if alive n && negb (nth (level n) (metaepoch_lens C) 0 =? 0) then Some (level n, (current_cost n' - current_cost n)%Z) else None.
  Lemma node_metaepoch_ran w n n' data : node_metaepoch w n = (n', data) -> ran n n' /\ data = metaepoch_data n n'.
  Proof.
    unfold DhgsModel.node_metaepoch, DhgsSpec.ran, metaepoch_data. destruct (alive n) eqn:Al.
    - set (len := nth (level n) (metaepoch_lens C) 0). set (d := fold_left _ _ _). destruct (dfinal (w_final draw w) d) as [d' pop] eqn:Ed.
      intros [= <- <-]. split.
      + split; cbn; auto; [|destruct (relative_hypervolume n); reflexivity].
        exists (map (w_steps draw w) (seq 0 len)), d, (w_final draw w), (ddelegates d').
        split; [now rewrite map_length, seq_length|]. split; [rewrite iterate_fold, fold_left_map; reflexivity|]. split; [now rewrite Ed|].
        split; [reflexivity|]. split; [reflexivity|]. apply HgsProofs.shuffle_perm.
      + cbn. destruct (len =? 0); reflexivity.
    - intros [= <- <-]. split; reflexivity.
  Qed.
  Lemma ran_keeps n n' : ran n n' -> keeps n n' /\ alive n' = alive n.
  Proof.
    unfold DhgsSpec.ran, keeps. destruct (alive n) eqn:Al.
    - intros [_ _ _ _ (E1 & E2 & E3 & E4 & _)]. rewrite E2, E1, Al. auto.
    - intros ->. rewrite Al. auto.
  Qed.

  Definition charge (x : nat * message) : list Q :=
    match m_body (snd x) with NMetaepochEnd (Some (lv, z)) => [(nth lv (cost_modifiers C) 0 * inject_Z z)%Q] | _ => [] end.

  Lemma maximum_spec l : l <> [] -> exists m, maximum l = Ok m /\ In m l /\ forall x, In x l -> (x <= m)%Q.
  Proof.
    destruct l as [|x l]; [congruence|]. intros _. cbn [maximum].
    assert (H : forall l x0, exists m, fold_left (fun m y => if Qle_bool y m then m else y) l x0 = m /\ (m = x0 \/ In m l) /\ (x0 <= m)%Q /\ forall y, In y l -> (y <= m)%Q).
    { clear. induction l as [|y l IH]; intros x0; cbn.
      - exists x0. repeat split; auto with qarith.
      - destruct (IH (if Qle_bool y x0 then x0 else y)) as (m & E & I & L & A). exists m. split; [exact E|].
        destruct (Qle_bool y x0) eqn:B.
        + apply Qle_bool_iff in B. split; [destruct I; auto|]. split; [auto|]. intros z [<-|Hz]; [now apply Qle_trans with x0|auto].
        + assert (x0 <= y)%Q. { destruct (Qlt_le_dec x0 y) as [H|H]; [now apply Qlt_le_weak|]. apply Qle_bool_iff in H. congruence. }
          split; [destruct I as [->|]; auto|]. split; [now apply Qle_trans with y|]. intros z [<-|Hz]; auto. }
    destruct (H l x) as (m & E & I & L & A). exists m. rewrite E. split; [reflexivity|]. split; [destruct I as [->|]; cbn; auto|].
    intros y [<-|Hy]; auto.
  Qed.

  Theorem metaepoch_op c ns R k : calm c ns R -> inv (sup c) ns ->
    (exists i n, nth_error ns i = Some n /\ alive n = true /\ 0 < nth (level n) (metaepoch_lens C) 0) ->
    until (fun c' => answers c' = answers c)
      (fun c' => exists ns', calm c' ns' (fun j => j < length ns') /\ length ns' = length ns /\ visited c' = visited c /\
         (forall i n, nth_error ns i = Some n -> exists n', nth_error ns' i = Some n' /\ ran n n') /\
         inv (sup c') ns' /\ s_states (sup c') = [] /\ s_ratios (sup c') = s_ratios (sup c) /\
         answers c' = answers c ++ [mk (Ext, k) (HMetaepochEnd (s_cost (sup c')))] /\
         exists m, s_cost (sup c') = (s_cost (sup c) + m)%Q /\
           (exists i n n', nth_error ns i = Some n /\ nth_error ns' i = Some n' /\ alive n = true /\ m = weighted_cost n n') /\
           (forall i n n', nth_error ns i = Some n -> nth_error ns' i = Some n' -> alive n = true -> 0 < nth (level n) (metaepoch_lens C) 0 -> (weighted_cost n n' <= m)%Q))
      (ask _ k HNewMetaepoch c).
  Proof.
    intros Cm Iv Live. pose proof (inv_some _ _ Iv) as Pos.
    set (k0 := length (s_tasks (sup c))). set (N := length ns). set (s1 := with_states (sup c) []).
    eapply until_weaken with (Q := fun c' => answers c' = answers c); [|auto|].
    - apply operation with (ids := seq 0 N) (request := fun _ => mk (Sup, k0) NNewMetaepoch) (R := R) (ns := ns)
        (work := fun _ n n' m => ran n n' /\ m = mk (Sup, k0) (NMetaepochEnd (metaepoch_data n n')))
        (G := fun got s => nth_error (s_tasks s) k0 = Some (TMetaepoch Ext (Ext, k) N (length got) (flat_map charge got)) /\ fields s1 s)
        (F := fun got s ans => exists m, maximum (flat_map charge got) = Ok m /\ s_cost s = (s_cost (sup c) + m)%Q /\ s_nodes s = s_nodes s1 /\
           s_levels s = s_levels s1 /\ s_states s = [] /\ s_ratios s = s_ratios s1 /\ ans = mk (Ext, k) (HMetaepochEnd (s_cost s)))
        (s1 := with_task s1 (TMetaepoch Ext (Ext, k) (length (s_nodes (sup c))) 0 [])); auto.
      + apply seq_NoDup.
      + unfold N. destruct ns; [cbn in Pos; lia|discriminate].
      + intros i Hi. apply in_seq in Hi. lia.
      + intros i a n _ An As. destruct (node_metaepoch (W i (length (a_tasks drv a))) n) as [n' data] eqn:E.
        destruct (node_metaepoch_ran _ _ _ _ E) as (Rn & ->).
        exists {| a_node := Some n'; a_sup := a_sup drv a; a_tasks := a_tasks drv a ++ [TOnce] |}, n', (mk (Sup, k0) (NMetaepochEnd (metaepoch_data n n'))).
        unfold DhgsModel.node_receive. cbn [m_id m_body]. rewrite An. cbn [node_start]. rewrite E. repeat split; auto. discriminate.
      + unfold DhgsModel.sup_receive. cbn. rewrite (iv_nodes _ _ Iv). fold N. reflexivity.
      + cbn. rewrite (iv_nodes _ _ Iv), seq_length. fold N. split; [apply task_new|repeat split].
      + intros got s i n n' m (Gt & Gf) Hn (Rn & ->) _ L. rewrite seq_length in L.
        unfold DhgsModel.sup_receive, continue_task. cbn [m_body m_id]. rewrite (get_Some _ _ _ Gt). cbn [bind].
        destruct (Nat.eqb_spec (S (length got)) N); [lia|]. eexists. split; [reflexivity|]. split; [|exact Gf].
        rewrite app_length, flat_map_snoc. unfold charge at 2. cbn [snd m_body]. cbn [length]. rewrite Nat.add_1_r.
        destruct (metaepoch_data n n') as [[lv z]|]; rewrite ?app_nil_r; eapply task_set; eauto.
      + intros got s i n n' m (Gt & Gf) Hn (Rn & ->) _ L Co. rewrite seq_length in L.
        unfold DhgsModel.sup_receive, continue_task. cbn [m_body m_id]. rewrite (get_Some _ _ _ Gt). cbn [bind].
        destruct (Nat.eqb_spec (S (length got)) N); [|lia].
        assert (Ec : match metaepoch_data n n' with Some (lv, z) => flat_map charge got ++ [(nth lv (cost_modifiers C) 0 * inject_Z z)%Q] | None => flat_map charge got end
                     = flat_map charge (got ++ [(i, mk (Sup, k0) (NMetaepochEnd (metaepoch_data n n')))])).
        { rewrite flat_map_snoc. unfold charge at 4. cbn [snd m_body]. destruct (metaepoch_data n n') as [[lv z]|]; now rewrite ?app_nil_r. }
        assert (Ne : flat_map charge (got ++ [(i, mk (Sup, k0) (NMetaepochEnd (metaepoch_data n n')))]) <> []).
        { destruct Live as (j & nj & Hj & Aj & Lj). destruct Co as (Cp & Cw).
          assert (Ij : In j (map fst (got ++ [(i, mk (Sup, k0) (NMetaepochEnd (metaepoch_data n n')))]))).
          { eapply Permutation_in; [apply Permutation_sym; exact Cp|]. apply in_seq. assert (j < length ns) by (apply nth_error_Some; congruence). unfold N. lia. }
          apply in_map_iff in Ij. destruct Ij as ([j' m] & Ej & Ij). cbn in Ej. subst j'. destruct (Cw _ _ Ij) as (nj2 & nj' & H2 & Rj & ->).
          rewrite Hj in H2. injection H2 as <-. intros Z.
          assert (X : In (nth (level nj) (cost_modifiers C) 0 * inject_Z (current_cost nj' - current_cost nj))%Q []); [|destruct X].
          rewrite <- Z. apply in_flat_map. eexists. split; [exact Ij|]. unfold charge, metaepoch_data. cbn [snd m_body]. rewrite Aj.
          destruct (Nat.eqb_spec (nth (level nj) (metaepoch_lens C) 0) 0); [lia|]. cbn. auto. }
        destruct (maximum_spec _ Ne) as (m & Em & _). rewrite <- Ec in Em, Ne |- *. rewrite Em. cbn [bind].
        eexists. eexists. split; [reflexivity|]. exists m. destruct Gf as (F1 & F2 & F3 & F4 & F5). cbn. repeat split; auto. now rewrite F3.
    - intros c' (ns' & got & [Ga1 Ga2 Ga3 Ga4] & (ans & (m & Em & F1 & F2 & F3 & F4 & F5 & ->) & Ea) & Cm' & Ev).
      assert (All : forall i n, nth_error ns i = Some n -> exists n', nth_error ns' i = Some n' /\ ran n n' /\ In (i, mk (Sup, k0) (NMetaepochEnd (metaepoch_data n n'))) got).
      { intros i n Hn. assert (Ii : In i (map fst got)). { eapply Permutation_in; [apply Permutation_sym; exact Ga2|]. apply in_seq. assert (i < length ns) by (apply nth_error_Some; congruence). unfold N. lia. }
        apply in_map_iff in Ii. destruct Ii as ([i' m'] & Ei & Ii). cbn in Ei. subst i'. destruct (Ga3 _ _ Ii) as (n2 & n' & H2 & H3 & Rn & ->).
        rewrite Hn in H2. injection H2 as <-. exists n'. auto. }
      exists ns'. split; [|split; [|split; [|split; [|split; [|split; [|split; [|split]]]]]]]; auto.
      + eapply shape_ext; [exact Cm'| | | |]; auto. intros i Hi. right. apply in_seq. unfold N. lia.
      + intros i n Hn. destruct (All i n Hn) as (n' & ? & ? & _). eauto.
      + eapply inv_keep; [exact Iv| | | | |]; try (rewrite ?F2, ?F3, ?F5; reflexivity); auto.
        intros i n Hn. destruct (All i n Hn) as (n' & ? & Rn & _). exists n'. split; auto. now apply ran_keeps.
      + exists m. split; [exact F1|].
        assert (Ne : flat_map charge got <> []) by (intros Z; rewrite Z in Em; discriminate).
        destruct (maximum_spec _ Ne) as (m2 & Em2 & Im & Lm). rewrite Em in Em2. injection Em2 as <-. split.
        * apply in_flat_map in Im. destruct Im as ([j mj] & Ij & Im). destruct (Ga3 _ _ Ij) as (n & n' & H2 & H3 & Rn & ->).
          unfold charge, metaepoch_data in Im. cbn [snd m_body] in Im. destruct (alive n) eqn:Al; [|destruct Im].
          destruct (negb _); [|destruct Im]. cbn in Im. destruct Im as [<-|[]]. exists j, n, n'. auto.
        * intros i n n' Hn Hn' Al Ll. apply Lm. destruct (All i n Hn) as (n2 & H2 & _ & Ii). rewrite Hn' in H2. injection H2 as <-.
          apply in_flat_map. eexists. split; [exact Ii|]. unfold charge, metaepoch_data. cbn [snd m_body]. rewrite Al.
          destruct (Nat.eqb_spec (nth (level n) (metaepoch_lens C) 0) 0); [lia|]. cbn. auto.
  Qed.

  (* ------------------------------------------------------------------ questions *)

  Definition picked (ns : list node) (ids : list nat) : list node :=
    flat_map (fun i => match nth_error ns i with Some n => [n] | None => [] end) ids.
  Lemma picked_seq ns : picked ns (seq 0 (length ns)) = ns.
  Proof.
    unfold picked. enough (H : forall l pre, flat_map (fun i => match nth_error (pre ++ l) i with Some n => [n] | None => [] end) (seq (length pre) (length l)) = l)
      by exact (H ns []).
    induction l as [|n l IH]; intros pre; [reflexivity|]. cbn [length seq flat_map]. rewrite nth_error_app2, Nat.sub_diag by auto. cbn [nth_error app]. f_equal.
    specialize (IH (pre ++ [n])). rewrite <- app_assoc in IH. cbn in IH. rewrite app_length in IH. cbn in IH. now rewrite Nat.add_1_r in IH.
  Qed.
  Lemma picked_perm ns ids ids' : Permutation ids ids' -> Permutation (picked ns ids) (picked ns ids').
  Proof. apply Permutation_flat_map. Qed.
  Definition at_level ns (lv i : nat) : bool := match nth_error ns i with Some n => level n =? lv | None => false end.
  Lemma picked_filter ns lv ids : picked ns (filter (at_level ns lv) ids) = filter (fun n => level n =? lv) (picked ns ids).
  Proof.
    induction ids as [|i ids IH]; [reflexivity|]. cbn [filter]. unfold at_level at 1. unfold picked at 2. cbn [flat_map]. fold (picked ns ids).
    rewrite filter_app, <- IH. destruct (nth_error ns i) as [n|] eqn:E; [|reflexivity]. cbn [filter]. destruct (level n =? lv); [|reflexivity].
    unfold picked at 1. cbn [flat_map]. now rewrite E.
  Qed.
  Lemma listed_perm s ns lv ids : inv s ns -> nth_error (s_levels s) lv = Some ids -> Permutation ids (filter (at_level ns lv) (seq 0 (length ns))).
  Proof.
    intros Iv E. destruct (iv_listed _ _ Iv _ _ E) as (ND & M). apply NoDup_Permutation; [auto|apply NoDup_filter, seq_NoDup|].
    intros i. rewrite M, filter_In, in_seq. unfold at_level. split.
    - intros (n & Hn & <-). rewrite Hn. rewrite Nat.eqb_refl. split; auto. assert (i < length ns) by (apply nth_error_Some; congruence). lia.
    - intros (_ & H). destruct (nth_error ns i) as [n|]; [|discriminate]. apply Nat.eqb_eq in H. eauto.
  Qed.

  Lemma gathered_at ids work ns ns' got i n : gathered ids work ns ns' got -> In i ids -> nth_error ns i = Some n ->
    exists n' m, nth_error ns' i = Some n' /\ work i n n' m /\ In (i, m) got.
  Proof.
    intros [_ Gi Gg _] Hi Hn. assert (Ii : In i (map fst got)) by (eapply Permutation_in; [apply Permutation_sym; exact Gi|auto]).
    apply in_map_iff in Ii. destruct Ii as ([i' m] & Ei & Ii). cbn in Ei. subst i'. destruct (Gg _ _ Ii) as (n2 & n' & H2 & H3 & Wk).
    rewrite Hn in H2. injection H2 as <-. eauto.
  Qed.
  Lemma nth_ext_error {A} (l l' : list A) : length l' = length l -> (forall i x, nth_error l i = Some x -> nth_error l' i = Some x) -> l' = l.
  Proof.
    revert l'. induction l as [|x l IH]; intros [|y l'] L H; try discriminate; [reflexivity|]. f_equal.
    - specialize (H 0 x eq_refl). cbn in H. congruence.
    - apply IH; [now injection L|]. intros i z Hz. exact (H (S i) z Hz).
  Qed.
  Lemma gathered_same ids work ns ns' got : gathered ids work ns ns' got -> (forall i n n' m, work i n n' m -> n' = n) -> ns' = ns.
  Proof.
    intros Ga H. apply nth_ext_error; [apply (ga_len _ _ _ _ _ Ga)|]. intros i n Hn. destruct (in_dec Nat.eq_dec i ids) as [Ii|Ni].
    - destruct (gathered_at _ _ _ _ _ _ _ Ga Ii Hn) as (n' & m & H1 & H2 & _). now rewrite <- (H _ _ _ _ H2).
    - now rewrite (ga_rest _ _ _ _ _ Ga) by auto.
  Qed.
  Lemma inv_fields s s' ns : inv s ns -> fields s s' -> inv s' ns.
  Proof.
    intros Iv (F1 & F2 & F3 & F4 & F5). eapply inv_keep; [exact Iv| | | | |]; rewrite ?F1, ?F2, ?F5; auto.
    intros i n Hn. exists n. split; auto. repeat split; auto.
  Qed.

  Definition pop_in (x : nat * message) : list vec := match m_body (snd x) with NPopulationIs pop => pop | _ => [] end.
  Theorem population_op c ns R k : calm c ns R -> inv (sup c) ns ->
    until (fun c' => answers c' = answers c)
      (fun c' => calm c' ns (fun j => R j \/ j < length ns) /\ visited c' = visited c /\ fields (sup c) (sup c') /\
         exists order, Permutation order ns /\ answers c' = answers c ++ [mk (Ext, k) (HPopulations (flat_map (fun n => population n) order))])
      (ask _ k HPopulation c).
  Proof.
    intros Cm Iv. pose proof (inv_some _ _ Iv) as Pos. set (k0 := length (s_tasks (sup c))). set (N := length ns).
    eapply until_weaken with (Q := fun c' => answers c' = answers c); [|auto|].
    - apply operation with (ids := seq 0 N) (request := fun _ => mk (Sup, k0) NPopulation) (R := R) (ns := ns)
        (work := fun _ n n' m => n' = n /\ m = mk (Sup, k0) (NPopulationIs (population n)))
        (G := fun got s => nth_error (s_tasks s) k0 = Some (TPopulation Ext (Ext, k) N (length got) (flat_map pop_in got)) /\ fields (sup c) s)
        (F := fun got s ans => fields (sup c) s /\ ans = mk (Ext, k) (HPopulations (flat_map pop_in got)))
        (s1 := with_task (sup c) (TPopulation Ext (Ext, k) (length (s_nodes (sup c))) 0 [])); auto.
      + apply seq_NoDup.
      + unfold N. destruct ns; [cbn in Pos; lia|discriminate].
      + intros i Hi. apply in_seq in Hi. lia.
      + intros i a n _ An As. exists {| a_node := Some n; a_sup := a_sup drv a; a_tasks := a_tasks drv a ++ [TOnce] |}, n, (mk (Sup, k0) (NPopulationIs (population n))).
        unfold DhgsModel.node_receive. cbn [m_id m_body]. rewrite An. repeat split; auto. discriminate.
      + unfold DhgsModel.sup_receive. cbn. rewrite (iv_nodes _ _ Iv). fold N. reflexivity.
      + cbn. rewrite (iv_nodes _ _ Iv), seq_length. fold N. split; [apply task_new|repeat split].
      + intros got s i n n' m (Gt & Gf) Hn (Rn & ->) _ L. rewrite seq_length in L.
        unfold DhgsModel.sup_receive, continue_task. cbn [m_body m_id]. rewrite (get_Some _ _ _ Gt). cbn [bind].
        destruct (Nat.eqb_spec (S (length got)) N); [lia|]. eexists. split; [reflexivity|]. split; [|exact Gf].
        rewrite app_length, flat_map_snoc. cbn [length]. rewrite Nat.add_1_r. eapply task_set; eauto.
      + intros got s i n n' m (Gt & Gf) Hn (Rn & ->) _ L Co. rewrite seq_length in L.
        unfold DhgsModel.sup_receive, continue_task. cbn [m_body m_id]. rewrite (get_Some _ _ _ Gt). cbn [bind].
        destruct (Nat.eqb_spec (S (length got)) N); [|lia]. eexists. eexists. split; [reflexivity|]. split; [exact Gf|].
        rewrite flat_map_snoc. reflexivity.
    - intros c' (ns' & got & Ga & (ans & (Fs & ->) & Ea) & Cm' & Ev).
      assert (ns' = ns) as -> by (eapply gathered_same; [exact Ga|]; intros i n n' m (? & _); auto).
      split; [|split; [|split]]; auto.
      + eapply shape_ext; [exact Cm'| | | |]; auto. intros i [?|?]; [auto|]. right. apply in_seq. unfold N. lia.
      + exists (picked ns (map fst got)). split.
        * rewrite <- (picked_seq ns) at 2. apply picked_perm. apply (ga_ids _ _ _ _ _ Ga).
        * rewrite Ea. do 4 f_equal. unfold picked. pose proof (ga_got _ _ _ _ _ Ga) as Gg. clear - Gg. induction got as [|[i m] got IH]; [reflexivity|].
          cbn [flat_map map fst]. rewrite flat_map_app, <- IH by (intros; apply Gg; now right). destruct (Gg i m) as (n & n' & Hn & _ & _ & ->); [now left|].
          rewrite Hn. cbn. now rewrite app_nil_r.
  Qed.

  (** What a node says of itself when the supervisor asks: its level, flags, centre and size (and the asker's own address). *)
  Definition status_in (x : nat * message) : list status := match m_body (snd x) with NStatus st => [st] | _ => [] end.
  Lemma statuses_in k0 got ns : (forall j m, In (j, m) got -> exists n n', nth_error ns j = Some n /\ nth_error ns j = Some n' /\ n' = n /\ m = mk (Sup, k0) (NStatus (node_status drv Sup n))) ->
    flat_map status_in got = map (node_status drv Sup) (picked ns (map fst got)).
  Proof.
    intros Gg. unfold picked. induction got as [|[i m] got IH]; [reflexivity|].
    cbn [flat_map map fst]. rewrite map_app, <- IH by (intros; apply Gg; now right). destruct (Gg i m) as (n & n' & Hn & _ & _ & ->); [now left|].
    rewrite Hn. reflexivity.
  Qed.

  Lemma none_such {A} (f : A -> bool) l : (forall x, In x l -> f x = false) -> filter f l = [].
  Proof. induction l as [|x l IH]; intros H; [reflexivity|]. cbn. rewrite (H x) by now left. apply IH. intros; apply H; now right. Qed.
  Lemma app_length1 {A} (l : list A) x : length (l ++ [x]) = S (length l).
  Proof. rewrite app_length. cbn. lia. Qed.
  Theorem status_op c ns R k lv : calm c ns R -> inv (sup c) ns ->
    until (fun c' => answers c' = answers c)
      (fun c' => calm c' ns (fun j => R j \/ (lv = None /\ j < length ns)) /\ visited c' = visited c /\ fields (sup c) (sup c') /\
         exists order, Permutation order (asked ns lv) /\
           answers c' = answers c ++ [mk (Ext, k) (HStatuses (map (node_status drv Sup) order))])
      (ask _ k (HCheckStatus lv) c).
  Proof.
    intros Cm Iv. pose proof (inv_some _ _ Iv) as Pos. set (k0 := length (s_tasks (sup c))).
    assert (X : exists ids, match lv with None => Ok (s_nodes (sup c)) | Some l => if l <=? max_level C then get (s_levels (sup c)) l else Ok [] end = Ok ids /\
              NoDup ids /\ Permutation (picked ns ids) (asked ns lv) /\ (forall i, In i ids -> i < length ns) /\ (lv = None -> ids = seq 0 (length ns))).
    { destruct lv as [l|].
      - destruct (Nat.leb_spec l (max_level C)) as [L|L].
        + destruct (nth_lt (s_levels (sup c)) l) as (ids & E); [rewrite (iv_levels _ _ Iv); lia|]. exists ids. rewrite (get_Some _ _ _ E).
          destruct (iv_listed _ _ Iv _ _ E) as (ND & M). split; [auto|split; [auto|split; [|split; [|discriminate]]]].
          * cbn. rewrite <- (picked_seq ns) at 2. rewrite <- picked_filter. apply picked_perm. eapply listed_perm; eauto.
          * intros i Hi. apply M in Hi. destruct Hi as (n & Hn & _). apply nth_error_Some. congruence.
        + exists []. split; [auto|split; [constructor|split; [|split; [intros i []|discriminate]]]].
          cbn. rewrite none_such; [constructor|]. intros n Hn. apply In_nth_error in Hn. destruct Hn as (i & Hi).
          apply (iv_level _ _ Iv) in Hi. apply Nat.eqb_neq. lia.
      - exists (s_nodes (sup c)). rewrite (iv_nodes _ _ Iv). split; [auto|split; [apply seq_NoDup|split; [|split; [|auto]]]].
        + rewrite picked_seq. reflexivity.
        + intros i Hi. apply in_seq in Hi. lia. }
    destruct X as (ids & Ei & ND & Pm & Bd & All).
    assert (Es : sup_receive (sup c) Ext (mk (Ext, k) (HCheckStatus lv)) = Ok (with_task (sup c) (TStatus Ext (Ext, k) ids []),
        match ids with [] => [(Ext, mk (Ext, k) (HStatuses []))] | _ => map (fun i => (Nd i, mk (Sup, k0) NCheckStatus)) ids end)).
    { unfold DhgsModel.sup_receive. cbn [m_body m_id start_task]. rewrite Ei. reflexivity. }
    assert (Out : ids = [] \/ ids <> []) by (destruct ids; [left|right]; congruence). destruct Out as [->|Ne].
    - (* nobody to ask *)
      eapply ask_until; [exact Cm|exact Es|reflexivity|reflexivity|]. intros c1 Sh E1 _ Ea Ev.
      eapply answer_until; [exact Sh|exact Ea|]. intros c2 Cm2 E2 Ea2 Ev2 _.
      split; [|split; [congruence|split; [rewrite E2, E1; repeat split|]]].
      + eapply shape_ext; [exact Cm2| | | |]; auto. intros j [Rj|(L & Lj)]; [auto|]. specialize (All L). destruct ns; [cbn in Lj; lia|discriminate].
      + exists []. split; auto.
    - eapply until_weaken with (Q := fun c' => answers c' = answers c); [|auto|].
      + apply operation with (ids := ids) (request := fun _ => mk (Sup, k0) NCheckStatus) (R := R) (ns := ns)
          (work := fun _ n n' m => n' = n /\ m = mk (Sup, k0) (NStatus (node_status drv Sup n)))
          (G := fun got s => nth_error (s_tasks s) k0 = Some (TStatus Ext (Ext, k) ids (flat_map status_in got)) /\ fields (sup c) s /\ length (flat_map status_in got) = length got)
          (F := fun got s ans => fields (sup c) s /\ ans = mk (Ext, k) (HStatuses (flat_map status_in got)))
          (s1 := with_task (sup c) (TStatus Ext (Ext, k) ids [])); auto.
        * intros i a n _ An As. exists {| a_node := Some n; a_sup := a_sup drv a; a_tasks := a_tasks drv a ++ [TOnce] |}, n, (mk (Sup, k0) (NStatus (node_status drv Sup n))).
          unfold DhgsModel.node_receive. cbn [m_id m_body]. rewrite An. repeat split; auto. discriminate.
        * rewrite Es. destruct ids; [congruence|reflexivity].
        * split; [apply task_new|repeat split].
        * intros got s i n n' m (Gt & Gf & Gl) Hn (Rn & ->) _ L.
          unfold DhgsModel.sup_receive, continue_task. cbn [m_body m_id]. rewrite (get_Some _ _ _ Gt). cbn [bind]. rewrite app_length1, Gl.
          destruct (Nat.eqb_spec (S (length got)) (length ids)); [lia|]. eexists. split; [reflexivity|]. rewrite flat_map_snoc. split; [eapply task_set; eauto|].
          split; [exact Gf|]. rewrite app_length, Gl. unfold status_in. cbn. rewrite app_length. cbn. lia.
        * intros got s i n n' m (Gt & Gf & Gl) Hn (Rn & ->) _ L Co.
          unfold DhgsModel.sup_receive, continue_task. cbn [m_body m_id]. rewrite (get_Some _ _ _ Gt). cbn [bind]. rewrite app_length1, Gl.
          destruct (Nat.eqb_spec (S (length got)) (length ids)); [|lia]. eexists. eexists. split; [reflexivity|]. split; [exact Gf|].
          rewrite flat_map_snoc. reflexivity.
      + intros c' (ns' & got & Ga & (ans & (Fs & ->) & Ea) & Cm' & Ev).
        assert (ns' = ns) as -> by (eapply gathered_same; [exact Ga|]; intros i n n' m (? & _); auto).
        split; [|split; [|split]]; auto.
        * eapply shape_ext; [exact Cm'| | | |]; auto. intros i [?|(Hl & ?)]; [auto|]. right. rewrite (All Hl). apply in_seq. lia.
        * exists (picked ns (map fst got)). split.
          -- eapply Permutation_trans; [|exact Pm]. apply picked_perm. apply (ga_ids _ _ _ _ _ Ga).
          -- rewrite Ea. rewrite (statuses_in k0 got ns); [reflexivity|]. apply (ga_got _ _ _ _ _ Ga).
  Qed.

  (* ------------------------------------------------------------------ trimming *)

  Theorem redundant_op c ns R k : calm c ns R -> inv (sup c) ns ->
    until (fun c' => answers c' = answers c)
      (fun c' => calm c' ns (fun j => R j \/ j < length ns) /\ visited c' = visited c /\ fields (sup c) (sup c') /\
         answers c' = answers c ++ [mk (Ext, k) HTrimRedundantEnd])
      (ask _ k HTrimRedundant c).
  Proof.
    intros Cm Iv. pose proof (inv_some _ _ Iv) as Pos. set (k0 := length (s_tasks (sup c))). set (N := length ns).
    assert (Tg : forall l, trim_groups l = Ok []).
    { intros l. unfold trim_groups. cbn [fold_ok bind]. destruct (filter (fun x => st_level x =? 2) l); cbn [list_of_iterator trim_group trim_loop filter bind app];
        (destruct (filter (fun x => st_level x =? 1) l); cbn [list_of_iterator trim_group trim_loop filter bind app];
         (destruct (filter (fun x => st_level x =? 0) l); reflexivity)). }
    eapply until_weaken with (Q := fun c' => answers c' = answers c); [|auto|].
    - apply operation with (ids := seq 0 N) (request := fun _ => mk (Sup, k0) NCheckStatus) (R := R) (ns := ns)
          (work := fun _ n n' m => n' = n /\ m = mk (Sup, k0) (NStatus (node_status drv Sup n)))
        (G := fun got s => nth_error (s_tasks s) k0 = Some (TTrimRedundant Ext (Ext, k) N (flat_map status_in got)) /\ fields (sup c) s /\ length (flat_map status_in got) = length got)
        (F := fun got s ans => fields (sup c) s /\ ans = mk (Ext, k) HTrimRedundantEnd)
        (s1 := with_task (sup c) (TTrimRedundant Ext (Ext, k) (length (s_nodes (sup c))) [])); auto.
      + apply seq_NoDup.
      + unfold N. destruct ns; [cbn in Pos; lia|discriminate].
      + intros i Hi. apply in_seq in Hi. lia.
      + intros i a n _ An As. exists {| a_node := Some n; a_sup := a_sup drv a; a_tasks := a_tasks drv a ++ [TOnce] |}, n, (mk (Sup, k0) (NStatus (node_status drv Sup n))).
          unfold DhgsModel.node_receive. cbn [m_id m_body]. rewrite An. repeat split; auto. discriminate.
      + unfold DhgsModel.sup_receive. cbn. rewrite (iv_nodes _ _ Iv). fold N. reflexivity.
      + cbn. rewrite (iv_nodes _ _ Iv), seq_length. fold N. split; [apply task_new|repeat split].
      + intros got s i n n' m (Gt & Gf & Gl) Hn (Rn & ->) _ L. rewrite seq_length in L.
        unfold DhgsModel.sup_receive, continue_task. cbn [m_body m_id]. rewrite (get_Some _ _ _ Gt). cbn [bind]. rewrite app_length1, Gl.
        destruct (Nat.eqb_spec (S (length got)) N); [lia|]. eexists. split; [reflexivity|]. rewrite flat_map_snoc. split; [eapply task_set; eauto|].
        split; [exact Gf|]. rewrite app_length, Gl. unfold status_in. cbn. rewrite app_length. cbn. lia.
      + intros got s i n n' m (Gt & Gf & Gl) Hn (Rn & ->) _ L Co. rewrite seq_length in L.
        unfold DhgsModel.sup_receive, continue_task. cbn [m_body m_id]. rewrite (get_Some _ _ _ Gt). cbn [bind]. rewrite app_length1, Gl.
        destruct (Nat.eqb_spec (S (length got)) N); [|lia]. rewrite Tg. cbn [bind app]. eexists. eexists. split; [reflexivity|]. split; [exact Gf|]. reflexivity.
    - intros c' (ns' & got & Ga & (ans & (Fs & ->) & Ea) & Cm' & Ev).
      assert (ns' = ns) as -> by (eapply gathered_same; [exact Ga|]; intros i n n' m (? & _); auto).
      split; [|split; [|split]]; auto.
      eapply shape_ext; [exact Cm'| | | |]; auto. intros i [?|?]; [auto|]. right. apply in_seq. unfold N. lia.
  Qed.

  Definition ratio_of ns (ratios : list Q) (i : nat) : Q := match nth_error ns i with Some n => nth (level n) ratios 0%Q | None => 0%Q end.
  Lemma per_level ns ratios me : forall L off, (forall j l i, nth_error L j = Some l -> In i l -> exists n, nth_error ns i = Some n /\ level n = off + j) ->
    flat_map (fun q => map (fun i => (Nd i, mk me (NTrimNotProgressing (nth (fst q) ratios 0%Q)))) (snd q)) (combine (seq off (length L)) L)
    = map (fun i => (Nd i, mk me (NTrimNotProgressing (ratio_of ns ratios i)))) (concat L).
  Proof.
    induction L as [|l L IH]; intros off H; [reflexivity|]. cbn [length seq combine flat_map concat fst snd]. rewrite map_app. f_equal.
    - apply map_ext_in. intros i Hi. destruct (H 0 l i eq_refl Hi) as (n & Hn & Hl). unfold ratio_of. rewrite Hn, Hl, Nat.add_0_r. reflexivity.
    - apply IH. intros j l' i Hj Hi. destruct (H (S j) l' i Hj Hi) as (n & Hn & Hl). exists n. split; auto. lia.
  Qed.
  Lemma NoDup_app_intro {A} (l1 l2 : list A) : NoDup l1 -> NoDup l2 -> (forall x, In x l1 -> ~ In x l2) -> NoDup (l1 ++ l2).
  Proof.
    induction 1 as [|x l1 Nx N1 IH]; intros N2 D; [auto|]. cbn. constructor.
    - rewrite in_app_iff. intros [?|?]; [auto|]. apply (D x); [now left|auto].
    - apply IH; auto. intros y Hy. apply D. now right.
  Qed.
  Lemma levels_perm s ns : inv s ns -> NoDup (concat (s_levels s)) /\ Permutation (concat (s_levels s)) (seq 0 (length ns)).
  Proof.
    intros Iv. pose proof (iv_levels _ _ Iv) as L. pose proof (iv_listed _ _ Iv) as H. destruct (s_levels s) as [|l0 [|l1 [|l2 [|]]]]; try discriminate.
    destruct (H 0 l0 eq_refl) as (N0 & M0). destruct (H 1 l1 eq_refl) as (N1 & M1). destruct (H 2 l2 eq_refl) as (N2 & M2).
    assert (ND : NoDup (concat [l0; l1; l2])).
    { cbn. rewrite app_nil_r. apply NoDup_app_intro; [auto|apply NoDup_app_intro; auto|].
      - intros i I1 I2. apply M1 in I1. apply M2 in I2. destruct I1 as (? & ? & ?), I2 as (? & ? & ?). congruence.
      - intros i I1 I2. apply in_app_iff in I2. apply M0 in I1. destruct I2 as [I2|I2]; [apply M1 in I2|apply M2 in I2]; destruct I1 as (? & ? & ?), I2 as (? & ? & ?); congruence. }
    split; [exact ND|]. apply NoDup_Permutation; [exact ND|apply seq_NoDup|]. intros i. cbn. rewrite app_nil_r, !in_app_iff, in_seq, M0, M1, M2. split.
    - intros [(n & Hn & _)|[(n & Hn & _)|(n & Hn & _)]]; assert (i < length ns) by (apply nth_error_Some; congruence); lia.
    - intros (_ & Hi). destruct (nth_lt ns i Hi) as (n & Hn). pose proof (iv_level _ _ Iv _ _ Hn). destruct (level n) as [|[|[|]]] eqn:E; eauto 6. lia.
  Qed.

  (** A node that stagnates dies and is ripe, its centre is taken; the others do not change. *)
  Notation trimmed := (trimmed EPSILON).
  Lemma node_trim_spec ratios n : level n < length ratios -> trimmed ratios n (node_trim (nth (level n) ratios 0%Q) n).
  Proof.
    intros L. unfold DhgsModel.node_trim, trimmed, stagnates.
    assert (E : nth_error ratios (level n) = Some (nth (level n) ratios 0%Q)) by now apply nth_error_nth'.
    destruct (alive n) eqn:Al; cbn [andb]; [|right; split; [intros (? & _); discriminate|reflexivity]].
    destruct (old_hypervolume n) as [old|] eqn:Eo; [|right; split; [intros (_ & ? & ? & ? & ? & _); discriminate|reflexivity]].
    destruct (Qle_bool old 0) eqn:Bo; cbn [negb andb].
    { right. split; [|reflexivity]. intros (_ & o & h & p & [= <-] & Po & _). apply Qle_bool_iff in Bo. exact (Qlt_not_le _ _ Po Bo). }
    assert (Po : (0 < old)%Q) by (apply Qnot_le_lt; intros X; apply Qle_bool_iff in X; congruence).
    destruct (hypervolume n) as [h|] eqn:Eh; [|right; split; [intros (_ & ? & ? & ? & _ & _ & ? & _); discriminate|reflexivity]].
    match goal with |- context [negb (Qle_bool ?a ?b)] => destruct (Qle_bool a b) eqn:B end; cbn [negb].
    - right. split; [|reflexivity]. intros (_ & o & h' & p & [= <-] & _ & [= <-] & Ep & Lt). rewrite E in Ep. injection Ep as <-.
      apply Qle_bool_iff in B. exact (Qlt_not_le _ _ Lt B).
    - left. split; [reflexivity|]. split; [|reflexivity]. exists old, h, (nth (level n) ratios 0%Q). repeat split; auto.
      apply Qnot_le_lt. intros X. apply Qle_bool_iff in X. congruence.
  Qed.
  Lemma trimmed_keeps ratios n n' : trimmed ratios n n' -> keeps n n'.
  Proof. intros [(_ & _ & ->)|(_ & ->)]; repeat split; auto. Qed.

  Theorem trim_op c ns R k : calm c ns R -> inv (sup c) ns ->
    until (fun c' => answers c' = answers c)
      (fun c' => exists ns', calm c' ns' (fun j => R j \/ j < length ns) /\ visited c' = visited c /\ fields (sup c) (sup c') /\
         answers c' = answers c ++ [mk (Ext, k) HTrimNotProgressingEnd] /\ length ns' = length ns /\
         forall i n, nth_error ns i = Some n -> exists n', nth_error ns' i = Some n' /\ trimmed (s_ratios (sup c)) n n')
      (ask _ k HTrimNotProgressing c).
  Proof.
    intros Cm Iv. pose proof (inv_some _ _ Iv) as Pos. set (k0 := length (s_tasks (sup c))). set (N := length ns).
    destruct (levels_perm _ _ Iv) as (ND & Pm). set (ids := concat (s_levels (sup c))) in *.
    assert (Li : length ids = N) by (rewrite (Permutation_length Pm); apply seq_length).
    eapply until_weaken with (Q := fun c' => answers c' = answers c); [|auto|].
    - apply operation with (ids := ids) (request := fun i => mk (Sup, k0) (NTrimNotProgressing (ratio_of ns (s_ratios (sup c)) i))) (R := R) (ns := ns)
        (work := fun i n n' m => n' = node_trim (ratio_of ns (s_ratios (sup c)) i) n /\ m = mk (Sup, k0) NTrimNotProgressingEnd)
        (G := fun got s => nth_error (s_tasks s) k0 = Some (TTrimNotProgressing Ext (Ext, k) N (length got)) /\ fields (sup c) s)
        (F := fun got s ans => fields (sup c) s /\ ans = mk (Ext, k) HTrimNotProgressingEnd)
        (s1 := with_task (sup c) (TTrimNotProgressing Ext (Ext, k) (length (s_nodes (sup c))) 0)); auto.
      + intros X. rewrite X in Li. cbn in Li. unfold N in Li. lia.
      + intros i Hi. eapply Permutation_in in Hi; [|exact Pm]. apply in_seq in Hi. lia.
      + intros i a n _ An As. exists {| a_node := Some (node_trim (ratio_of ns (s_ratios (sup c)) i) n); a_sup := a_sup drv a; a_tasks := a_tasks drv a ++ [TOnce] |},
          (node_trim (ratio_of ns (s_ratios (sup c)) i) n), (mk (Sup, k0) NTrimNotProgressingEnd).
        unfold DhgsModel.node_receive. cbn [m_id m_body]. rewrite An. repeat split; auto. discriminate.
      + unfold DhgsModel.sup_receive. cbn [m_body m_id start_task]. do 2 f_equal. apply per_level.
        intros j l i Hj Hi. apply (iv_listed _ _ Iv _ _ Hj) in Hi. exact Hi.
      + cbn. rewrite (iv_nodes _ _ Iv), seq_length. fold N. split; [apply task_new|repeat split].
      + intros got s i n n' m (Gt & Gf) Hn (Rn & ->) _ L. rewrite Li in L.
        unfold DhgsModel.sup_receive, continue_task. cbn [m_body m_id]. rewrite (get_Some _ _ _ Gt). cbn [bind].
        destruct (Nat.eqb_spec (S (length got)) N); [lia|]. eexists. split; [reflexivity|]. split; [|exact Gf].
        rewrite app_length1. eapply task_set; eauto.
      + intros got s i n n' m (Gt & Gf) Hn (Rn & ->) _ L Co. rewrite Li in L.
        unfold DhgsModel.sup_receive, continue_task. cbn [m_body m_id]. rewrite (get_Some _ _ _ Gt). cbn [bind].
        destruct (Nat.eqb_spec (S (length got)) N); [|lia]. eexists. eexists. split; [reflexivity|]. split; [exact Gf|reflexivity].
    - intros c' (ns' & got & Ga & (ans & (Fs & ->) & Ea) & Cm' & Ev).
      exists ns'. split; [|split; [|split; [|split; [|split]]]]; auto.
      + eapply shape_ext; [exact Cm'| | | |]; auto. intros i [?|?]; [auto|]. right. eapply Permutation_in; [apply Permutation_sym; exact Pm|]. apply in_seq. lia.
      + apply (ga_len _ _ _ _ _ Ga).
      + intros i n Hn. destruct (gathered_at _ _ _ _ _ i n Ga) as (n' & m & Hn' & (-> & _) & _); [|auto|].
        * eapply Permutation_in; [apply Permutation_sym; exact Pm|]. apply in_seq. assert (i < length ns) by (apply nth_error_Some; congruence). lia.
        * exists (node_trim (ratio_of ns (s_ratios (sup c)) i) n). split; [auto|]. unfold ratio_of. rewrite Hn. apply node_trim_spec.
          pose proof (iv_level _ _ Iv _ _ Hn). pose proof (iv_ratios _ _ Iv). lia.
  Qed.

  (* ------------------------------------------------------------------ revival *)

  (** The supervisor's record of the states after a release: somebody alive in it exactly when some node is, and otherwise every node once. *)
  Definition recorded s ns : Prop :=
    existsb st_alive (s_states s) = existsb (@alive drv) ns /\
    (existsb (@alive drv) ns = false -> exists ids, map st_addr (filter st_ripe (s_states s)) = map Nd ids /\ Permutation ids (seq 0 (length ns))).
  Lemma nth_firstn {A} (l : list A) m i : i < m -> nth_error (firstn m l) i = nth_error l i.
  Proof. revert m i. induction l as [|x l IH]; intros [|m] [|i] H; try lia; cbn; auto. apply IH. lia. Qed.
  Lemma nth_skipn {A} (l : list A) m i : nth_error (skipn m l) i = nth_error l (m + i).
  Proof. revert l. induction m as [|m IH]; intros [|x l]; cbn; auto. now destruct i. Qed.
  Lemma halve_first_spec m l : m <= length l -> exists l', halve_first m l = Ok l' /\ halved m l l'.
  Proof.
    intros L. unfold halve_first. rewrite (proj2 (Nat.leb_le _ _) L). eexists. split; [reflexivity|]. split.
    - rewrite app_length, map_length, firstn_length, skipn_length. lia.
    - intros i x Hx. destruct (Nat.ltb_spec i m) as [Li|Li].
      + rewrite nth_error_app1 by (rewrite map_length, firstn_length; lia). apply (map_nth_error (fun q => (q / 2)%Q)). rewrite nth_firstn by auto. exact Hx.
      + rewrite nth_error_app2 by (rewrite map_length, firstn_length; lia). rewrite map_length, firstn_length, Nat.min_l, nth_skipn by lia.
        now replace (m + (i - m)) with i by lia.
  Qed.

  Theorem revive_op c ns R k : calm c ns R -> inv (sup c) ns -> recorded (sup c) ns ->
    until (fun c' => answers c' = answers c)
      (fun c' => exists ns', calm c' ns' R /\ visited c' = visited c /\ answers c' = answers c ++ [mk (Ext, k) HReviveEnd] /\ inv (sup c') ns' /\
         s_cost (sup c') = s_cost (sup c) /\
         if existsb (@alive drv) ns then ns' = ns /\ s_ratios (sup c') = s_ratios (sup c)
         else ns' = map (fun n => with_flags drv n true false) ns /\ halved (S (max_level C)) (s_ratios (sup c)) (s_ratios (sup c')))
      (ask _ k HRevive c).
  Proof.
    intros Cm Iv (Re1 & Re2). pose proof (inv_some _ _ Iv) as Pos. set (k0 := length (s_tasks (sup c))). set (N := length ns).
    destruct (existsb (@alive drv) ns) eqn:Al.
    - assert (Es : sup_receive (sup c) Ext (mk (Ext, k) HRevive) = Ok (with_task (sup c) (TRevive Ext (Ext, k) 0 0), [(Ext, mk (Ext, k) HReviveEnd)])).
      { unfold DhgsModel.sup_receive. cbn [m_body m_id start_task]. now rewrite Re1. }
      eapply ask_until; [exact Cm|exact Es|reflexivity|reflexivity|]. intros c1 Sh E1 _ Ea Ev.
      eapply answer_until; [exact Sh|exact Ea|]. intros c2 Cm2 E2 Ea2 Ev2 _.
      exists ns. split; [exact Cm2|]. split; [congruence|]. split; [exact Ea2|]. rewrite E2, E1. split; [|split; [reflexivity|split; reflexivity]].
      eapply inv_fields; [exact Iv|]. repeat split.
    - destruct (Re2 eq_refl) as (ids & Ei & Pm). assert (ND : NoDup ids) by (eapply Permutation_NoDup; [apply Permutation_sym; exact Pm|apply seq_NoDup]).
      assert (Li : length ids = N) by (rewrite (Permutation_length Pm); apply seq_length).
      destruct (halve_first_spec (S (max_level C)) (s_ratios (sup c)) (iv_ratios _ _ Iv)) as (rs & Hr & Hh).
      set (s1 := with_ratios (sup c) rs).
      eapply until_weaken with (Q := fun c' => answers c' = answers c); [|auto|].
      + apply operation with (ids := ids) (request := fun i => mk (Sup, k0) NRevive) (R := R) (ns := ns)
          (work := fun i n n' m => n' = with_flags drv n true false /\ m = mk (Sup, k0) NRevived)
          (G := fun got s => nth_error (s_tasks s) k0 = Some (TRevive Ext (Ext, k) N (length got)) /\ fields s1 s)
          (F := fun got s ans => fields s1 s /\ ans = mk (Ext, k) HReviveEnd)
          (s1 := with_ratios (with_task (sup c) (TRevive Ext (Ext, k) (length (map st_addr (filter st_ripe (s_states (sup c))))) 0)) rs); auto.
        * intros X. rewrite X in Li. cbn in Li. unfold N in Li. lia.
        * intros i Hi. eapply Permutation_in in Hi; [|exact Pm]. apply in_seq in Hi. lia.
        * intros i a n _ An As. exists {| a_node := Some (with_flags drv n true false); a_sup := a_sup drv a; a_tasks := a_tasks drv a ++ [TOnce] |},
            (with_flags drv n true false), (mk (Sup, k0) NRevived).
          unfold DhgsModel.node_receive. cbn [m_id m_body]. rewrite An. repeat split; auto. discriminate.
        * unfold DhgsModel.sup_receive. cbn [m_body m_id start_task]. rewrite Re1, Hr. cbn [bind]. rewrite Ei, map_map. reflexivity.
        * rewrite Ei, map_length, Li. cbn [with_ratios s_tasks length]. split; [apply task_new|repeat split].
        * intros got s i n n' m (Gt & Gf) Hn (Rn & ->) _ L. rewrite Li in L.
          unfold DhgsModel.sup_receive, continue_task. cbn [m_body m_id]. rewrite (get_Some _ _ _ Gt). cbn [bind].
          destruct (Nat.eqb_spec (S (length got)) N); [lia|]. eexists. split; [reflexivity|]. split; [|exact Gf].
          rewrite app_length1. eapply task_set; eauto.
        * intros got s i n n' m (Gt & Gf) Hn (Rn & ->) _ L Co. rewrite Li in L.
          unfold DhgsModel.sup_receive, continue_task. cbn [m_body m_id]. rewrite (get_Some _ _ _ Gt). cbn [bind].
          destruct (Nat.eqb_spec (S (length got)) N); [|lia]. eexists. eexists. split; [reflexivity|]. split; [exact Gf|reflexivity].
      + intros c' (ns' & got & Ga & (ans & (Fs & ->) & Ea) & Cm' & Ev).
        assert (En : ns' = map (fun n => with_flags drv n true false) ns).
        { apply nth_ext_error; [rewrite map_length; apply (ga_len _ _ _ _ _ Ga)|]. intros i x Hx. rewrite nth_error_map in Hx. destruct (nth_error ns i) as [n|] eqn:Hn; [|discriminate].
          injection Hx as <-. destruct (gathered_at _ _ _ _ _ i n Ga) as (n' & m & Hn' & (-> & _) & _); auto.
          eapply Permutation_in; [apply Permutation_sym; exact Pm|]. apply in_seq. assert (i < length ns) by (apply nth_error_Some; congruence). lia. }
        exists ns'. destruct Fs as (F1 & F2 & F3 & F4 & F5). split; [|split; [|split; [|split; [|split; [|split]]]]]; auto.
        * eapply shape_ext; [exact Cm'|intros i Hi; now left| | |]; auto.
        * eapply inv_keep; [exact Iv| | | | |]; rewrite ?F1, ?F2, ?F5; auto.
          -- apply Hh.
          -- apply (ga_len _ _ _ _ _ Ga).
          -- intros i n Hn. exists (with_flags drv n true false). split; [rewrite En, nth_error_map, Hn; reflexivity|repeat split; auto].
        * now rewrite F5.
  Qed.
End Ops.
