(** Scatter and gather: the supervisor posts requests to some nodes and waits for one answer from each, in any order. *)
From Verif Require Import Spec Base VarModel VarProofs HgsModel HgsSpec DhgsModel DhgsSpec DhgsNet.
From Coq Require Import QArith Permutation.
Local Open Scope nat_scope.

Definition boxes (l : list (nat * message)) (i : nat) : list message := map snd (filter (fun x => fst x =? i) l).
Lemma boxes_app l1 l2 i : boxes (l1 ++ l2) i = boxes l1 i ++ boxes l2 i.
Proof. unfold boxes. now rewrite filter_app, map_app. Qed.
Lemma boxes_none l i : ~ In i (map fst l) -> boxes l i = [].
Proof.
  unfold boxes. induction l as [|[j m] l IH]; [reflexivity|]. intros H. cbn in *. rewrite neqb by (intros ->; tauto). apply IH. tauto.
Qed.
Lemma boxes_take l i m q : boxes l i = m :: q -> exists l1 l2, l = l1 ++ (i, m) :: l2 /\ forall j, upd (boxes l) i q j = boxes (l1 ++ l2) j.
Proof.
  revert q. induction l as [|[j x] l IH]; intros q E; [discriminate|]. unfold boxes in E. cbn in E. destruct (Nat.eqb_spec j i) as [->|Ne].
  - cbn in E. injection E as <- <-. exists [], l. split; [reflexivity|]. intros j. unfold upd. destruct (Nat.eqb_spec j i) as [->|Nj]; [reflexivity|].
    unfold boxes. cbn. now rewrite neqb by auto.
  - destruct (IH q E) as (l1 & l2 & -> & H). exists ((j, x) :: l1), l2. split; [reflexivity|]. intros k. specialize (H k). unfold upd in *.
    destruct (Nat.eqb_spec k i) as [Ek|Nk].
    + subst k. rewrite H. unfold boxes. cbn. now rewrite neqb.
    + unfold boxes in *. cbn. destruct (j =? k); cbn; now rewrite H.
Qed.
Lemma boxes_post l i m j : upd (boxes l) i (boxes l i ++ [m]) j = boxes (l ++ [(i, m)]) j.
Proof.
  unfold upd. rewrite boxes_app. unfold boxes at 3. cbn. rewrite (Nat.eqb_sym i j). destruct (Nat.eqb_spec j i) as [->|]; cbn; [reflexivity|now rewrite app_nil_r].
Qed.
Lemma boxes_to l i : to (Nd i) (map (fun x => (Nd (fst x), snd x)) l) = boxes l i.
Proof. unfold to, boxes. induction l as [|[j m] l IH]; [reflexivity|]. cbn. destruct (j =? i); cbn; now rewrite IH. Qed.
Lemma boxes_In l i : boxes l i <> [] <-> In i (map fst l).
Proof.
  split.
  - intros H. destruct (in_dec Nat.eq_dec i (map fst l)); [auto|]. now rewrite boxes_none in H.
  - intros H E. apply in_map_iff in H. destruct H as ([j m] & <- & I). unfold boxes in E. apply map_eq_nil in E.
    assert (X : In (j, m) (filter (fun x => fst x =? j) l)) by (apply filter_In; split; [auto|cbn; apply Nat.eqb_refl]). cbn in E. rewrite E in X. destruct X.
Qed.

Section Gather.
  Context {drv draw : Type}.
  Variable dnew : nat -> draw -> list vec -> drv.
  Variable dstep : draw -> drv -> drv.
  Variable dcost : drv -> Z.
  Variable dfinal : draw -> drv -> drv * list vec.
  Variable ddelegates : drv -> list vec.
  Variable hv_of : list vec -> Q.
  Variable EPSILON : Q.
  Variable C : config.
  Variable W : nat -> nat -> ndraws draw.
  Variable Wnew : nat -> draw.
  Notation system := (system drv).
  Notation node := (node drv).
  Notation receive := (receive drv draw dnew dstep dcost dfinal ddelegates hv_of EPSILON C W Wnew).
  Notation node_receive := (node_receive drv draw dnew dstep dcost dfinal ddelegates hv_of EPSILON C W Wnew).
  Notation sup_receive := (sup_receive C).
  Notation until := (until dnew dstep dcost dfinal ddelegates hv_of EPSILON C W Wnew).
  Notation shape := (shape dnew Wnew).
  Notation kept := (kept dnew Wnew).
  Notation sup c := (c_sup drv c). Notation actor c i := (c_nodes drv c i). Notation mail c a b := (c_mail drv c a b).
  Notation eff_request := (effect_request dnew dstep dcost dfinal ddelegates hv_of EPSILON C W Wnew).
  Notation eff_reply := (effect_reply dnew dstep dcost dfinal ddelegates hv_of EPSILON C W Wnew).
  Notation eff_answer := (effect_answer dnew dstep dcost dfinal ddelegates hv_of EPSILON C W Wnew).
  Implicit Types (c : system) (ns : list node).

  Definition no_mail (_ : nat) : list message := [].
  Definition no_peer (_ _ : nat) : list message := [].

  Variable ids : list nat.
  Hypothesis Hnd : NoDup ids.
  Hypothesis Hne : ids <> [].
  Variable request : nat -> message.
  Hypothesis Hreq : forall i, is_release (request i) = false.
  Variable work : nat -> node -> node -> message -> Prop.
  Hypothesis Hwork : forall i a n, In i ids -> a_node _ a = Some n -> a_sup _ a = Some Sup ->
    exists a' n' m, node_receive i a Sup (request i) = Ok (a', [(Sup, m)]) /\ a_node _ a' = Some n' /\ a_sup _ a' = Some Sup /\
      work i n n' m /\ m_body m <> Done.
  Variable G : list (nat * message) -> supervisor -> Prop.
  Variable F : list (nat * message) -> supervisor -> message -> Prop.
  Variable ns0 : list node.
  Definition collected (got : list (nat * message)) : Prop :=
    Permutation (map fst got) ids /\ forall j m, In (j, m) got -> exists n n', nth_error ns0 j = Some n /\ work j n n' m.
  Hypothesis Hmore : forall got s i n n' m, G got s -> nth_error ns0 i = Some n -> work i n n' m -> In i ids -> S (length got) < length ids ->
    exists s', sup_receive s (Nd i) m = Ok (s', []) /\ G (got ++ [(i, m)]) s'.
  Hypothesis Hlast : forall got s i n n' m, G got s -> nth_error ns0 i = Some n -> work i n n' m -> In i ids -> S (length got) = length ids ->
    collected (got ++ [(i, m)]) ->
    exists s' ans, sup_receive s (Nd i) m = Ok (s', [(Ext, ans)]) /\ F (got ++ [(i, m)]) s' ans.

  (** What is known at the end. *)
  Record gathered (ns' : list node) (got : list (nat * message)) : Prop := {
    ga_len : length ns' = length ns0;
    ga_ids : Permutation (map fst got) ids;
    ga_got : forall j m, In (j, m) got -> exists n n', nth_error ns0 j = Some n /\ nth_error ns' j = Some n' /\ work j n n' m;
    ga_rest : forall j, ~ In j ids -> nth_error ns' j = nth_error ns0 j
  }.

  Record progress c (R : nat -> Prop) ns (P O got : list (nat * message)) : Prop := {
    pr_perm : Permutation (map fst P ++ map fst O ++ map fst got) ids;
    pr_req : forall i m, In (i, m) P -> m = request i;
    pr_shape : shape c ns (fun j => R j \/ (In j ids /\ ~ In j (map fst P))) (boxes P) (boxes O) [] [] no_peer;
    pr_G : G got (sup c);
    pr_len : length ns = length ns0;
    pr_still : forall j, (In j (map fst P) \/ ~ In j ids) -> nth_error ns j = nth_error ns0 j;
    pr_moved : forall j m, In (j, m) (O ++ got) -> exists n n', nth_error ns0 j = Some n /\ nth_error ns j = Some n' /\ work j n n' m
  }.

  Lemma perm_nodup (l : list nat) : Permutation l ids -> NoDup l.
  Proof. intros P. eapply Permutation_NoDup; [apply Permutation_sym; exact P|exact Hnd]. Qed.

  Lemma undone_one m : m_body m <> Done -> undone [m] = [m].
  Proof. intros H. unfold undone. cbn. destruct (m_body m); congruence. Qed.

  Lemma gather_loop a0 v0 R : forall k c ns P O got, 2 * length P + length O <= k -> (0 < length P + length O) ->
    progress c R ns P O got -> answers c = a0 -> visited c = v0 ->
    until (fun c' => answers c' = a0)
      (fun c' => exists ns' got, gathered ns' got /\ (exists ans, F got (sup c') ans /\ answers c' = a0 ++ [ans]) /\
         shape c' ns' (fun j => R j \/ In j ids) no_mail no_mail [] [] no_peer /\ visited c' = v0) c.
  Proof.
    induction k as [|k IH]; intros c ns P O got Hk Hpos Pr Ha Hv; [lia|].
    destruct Pr as [Q1 Q2 Q3 Q4 Q5 Q6 Q7].
    assert (ND := perm_nodup _ Q1).
    assert (Bound : forall i, In i (map fst P) \/ In i (map fst O) -> i < length ns).
    { intros i [Hi|Hi].
      - destruct (Nat.lt_ge_cases i (length ns)) as [L|L]; [auto|]. apply boxes_In in Hi. destruct (sh_out _ _ _ _ _ _ _ _ _ _ Q3 i L) as (_ & Z & _). now rewrite Z in Hi.
      - destruct (Nat.lt_ge_cases i (length ns)) as [L|L]; [auto|]. apply boxes_In in Hi. destruct (sh_out _ _ _ _ _ _ _ _ _ _ Q3 i L) as (_ & _ & Z & _). now rewrite Z in Hi. }
    eapply drift; [exact Q3| | |].
    - intros c1 (_ & K & _). congruence.
    - destruct P as [|[i m] P].
      + destruct O as [|[i m] O]; [cbn in Hpos; lia|]. exists i, 0. right. left. split; [apply Bound; right; now left|]. apply boxes_In. now left.
      + exists i, 0. left. split; [apply Bound; left; now left|]. apply boxes_In. now left.
    - intros c1 o Sh1 (K1 & K2 & K3 & K4) Rl. destruct Rl as [i n m q Hn V Hr|i m q Hi Hr Hm|m q Hx|m q Hx|i j m q Hx]; try discriminate.
      + (* a request is read *)
        destruct (boxes_take _ _ _ _ Hr) as (P1 & P2 & EP & HP). assert (m = request i) as -> by (apply (Q2 i m); rewrite EP; apply in_or_app; right; now left).
        assert (Hin : In i ids). { eapply Permutation_in; [exact Q1|]. rewrite EP, map_app. cbn. rewrite !in_app_iff. left. right. now left. }
        inversion V as [V1 V2 V3| |]. destruct (Hwork i (actor c1 i) n Hin V1 V2) as (a' & n' & m' & Er & An & As & Wk & Dn).
        edestruct eff_request as (c2 & Ec & Sh2 & T1 & T2 & T3 & T4); [exact Sh1|exact Hn|exact V|exact Hr|exact Er|exact An|exact As|reflexivity|].
        exists c2. split; [exact Ec|]. rewrite (Hreq i), app_nil_r in T4.
        assert (Fi : ~ In i (map fst (P1 ++ P2)) /\ ~ In i (map fst O) /\ ~ In i (map fst got)).
        { rewrite EP in ND. rewrite map_app in ND |- *. cbn in ND. rewrite <- app_assoc in ND. cbn in ND. apply NoDup_remove_2 in ND. rewrite !in_app_iff in ND. rewrite in_app_iff. tauto. }
        apply (IH c2 (set_nth i n' ns) (P1 ++ P2) (O ++ [(i, m')]) got).
        * rewrite EP in Hk. rewrite !app_length in *. cbn in *. lia.
        * rewrite !app_length. cbn. lia.
        * assert (Hn0 : nth_error ns0 i = Some n). { rewrite <- Hn. symmetry. apply Q6. left. rewrite EP, map_app. apply in_or_app. right. now left. }
          split.
          -- rewrite EP in Q1. rewrite map_app in Q1 |- *. cbn in Q1. rewrite map_app. cbn.
             eapply Permutation_trans; [|exact Q1]. rewrite <- !app_assoc. apply Permutation_app_head. cbn.
             apply Permutation_sym. rewrite !app_assoc. apply Permutation_cons_app. now rewrite <- app_assoc.
          -- intros j x Hj. apply Q2. rewrite EP. apply in_app_iff in Hj. apply in_or_app. cbn. tauto.
          -- eapply shape_ext; [exact Sh2| | | |].
             ++ intros j [Rj|(Ij & Nj)]; [auto|]. destruct (Nat.eq_dec j i) as [->|Nji]; [auto|]. left. right. split; auto.
                intros X. apply Nj. rewrite EP, map_app in X. rewrite map_app. apply in_app_iff in X. apply in_or_app. cbn in X. destruct X as [X|[X|X]]; auto; congruence.
             ++ intros j. rewrite <- HP. reflexivity.
             ++ intros j. rewrite <- boxes_post. unfold to. cbn [map filter fst addr_eqb snd]. unfold upd. destruct (j =? i); auto. now rewrite undone_one.
             ++ intros j j'. unfold to. cbn. destruct (j =? i); reflexivity.
          -- now rewrite T1, K1.
          -- now rewrite set_nth_length.
          -- intros j Hj. assert (j <> i) by (intros ->; destruct Hj as [Hj|Hj]; tauto). rewrite set_nth_off by auto. apply Q6.
             destruct Hj as [Hj|Hj]; [left|right; auto]. rewrite EP, map_app. rewrite map_app in Hj. apply in_app_iff in Hj. apply in_or_app. cbn. tauto.
          -- intros j x Hj. rewrite <- app_assoc in Hj. apply in_app_iff in Hj. cbn in Hj.
             assert (Hj' : (j, x) = (i, m') \/ In (j, x) (O ++ got)) by (rewrite in_app_iff; destruct Hj as [Hj|[Hj|Hj]]; auto). clear Hj.
             destruct Hj' as [[= -> ->]|Hj].
             ++ exists n, n'. split; [auto|split; [|auto]]. now apply set_nth_at with n.
             ++ assert (j <> i). { intros ->. apply in_app_iff in Hj. destruct Hj as [Hj|Hj]; apply (in_map fst) in Hj; cbn in Hj; tauto. }
                rewrite set_nth_off by auto. now apply Q7.
        * congruence.
        * congruence.
      + (* an answer is read *)
        destruct (boxes_take _ _ _ _ Hr) as (O1 & O2 & EO & HO).
        destruct (Q7 i m) as (n & n' & N0 & N1 & Wk); [rewrite EO; apply in_or_app; left; apply in_or_app; right; now left|].
        assert (Hin : In i ids). { eapply Permutation_in; [exact Q1|]. rewrite EO, map_app. cbn. rewrite !in_app_iff. right. left. right. now left. }
        rewrite <- K1 in Q4.
        assert (Perm : Permutation (map fst P ++ map fst (O1 ++ O2) ++ map fst (got ++ [(i, m)])) ids).
        { eapply Permutation_trans; [|exact Q1]. apply Permutation_app_head. rewrite EO, !map_app. cbn. rewrite <- !app_assoc. apply Permutation_app_head. cbn.
          apply Permutation_sym. rewrite !app_assoc. apply Permutation_cons_app. now rewrite app_nil_r. }
        pose proof (Permutation_length Perm) as Len. rewrite !app_length, !map_length, !app_length in Len. cbn in Len.
        destruct (Nat.eq_dec (length P + length (O1 ++ O2)) 0) as [Z|Z].
        * (* the last one *) assert (P = [] /\ O1 ++ O2 = []) as (-> & Eo) by (destruct P, (O1 ++ O2); cbn in Z; auto; lia).
          rewrite Eo in Perm. cbn in Perm. rewrite app_length in Z. cbn in Z.
          assert (Co : collected (got ++ [(i, m)])).
          { split; [exact Perm|]. intros j x Hj. apply in_app_iff in Hj. destruct Hj as [Hj|[[= -> ->]|[]]].
            - destruct (Q7 j x) as (a & b & ? & _ & ?); [apply in_or_app; auto|]. eauto.
            - eauto. }
          destruct (Hlast got (sup c1) i n n' m Q4 N0 Wk Hin) as (s' & ans & Es & Fs); [rewrite <- Len; cbn in *; lia|exact Co|].
          edestruct eff_reply as (c2 & Ec & Sh2 & T1 & T2 & T3 & T4); [exact Sh1|exact Hi|exact Hr|exact Hm|exact Es|reflexivity|reflexivity|].
          exists c2. split; [exact Ec|].
          eapply drift; [exact Sh2| | |].
          -- intros c3 (_ & K & _). congruence.
          -- exists 0, 0. right. right. right. left. discriminate.
          -- intros c3 o Sh3 (L1 & L2 & L3 & L4) Rl. 
             assert (Qe : forall j, (boxes [] j ++ to (Nd j) [(Ext, ans)]) = []) by reflexivity.
             assert (Re : forall j, upd (boxes O) i (undone q) j = []) by (intros j; rewrite HO, Eo; reflexivity).
             destruct Rl as [j nj m1 q1 Hnj Vj Hrj|j m1 q1 Hj Hrj Hmj|m1 q1 Hxj|m1 q1 Hxj|j j' m1 q1 Hxj]; try discriminate.
             ++ rewrite Re in Hrj. discriminate.
             ++ cbn in Hxj. injection Hxj as <- <-.
                edestruct eff_answer as (c4 & Ec4 & Sh4 & U1 & U2 & U3 & U4); [exact Sh3|reflexivity|].
                exists c4. split; [exact Ec4|]. apply until_now. exists ns, (got ++ [(i, m)]). split; [|split; [|split]].
                ** split; auto.
                   intros j x Hj. apply in_app_iff in Hj. destruct Hj as [Hj|[[= -> ->]|[]]]; [apply Q7; apply in_or_app; auto|]. eauto.
                ** exists ans. split; [congruence|]. rewrite U3. cbn [snd]. congruence.
                ** eapply shape_ext; [exact Sh4| | | |]; auto. intros j [?|?]; auto.
                ** congruence.
        * (* more to come *)
          destruct (Hmore got (sup c1) i n n' m Q4 N0 Wk Hin) as (s' & Es & Gs); [rewrite app_length in Z; lia|].
          edestruct eff_reply as (c2 & Ec & Sh2 & T1 & T2 & T3 & T4); [exact Sh1|exact Hi|exact Hr|exact Hm|exact Es|reflexivity|reflexivity|].
          exists c2. split; [exact Ec|].
          apply (IH c2 ns P (O1 ++ O2) (got ++ [(i, m)])).
          -- rewrite EO in Hk. rewrite !app_length in *. cbn in *. lia.
          -- lia.
          -- split; auto.
             ++ eapply shape_ext; [exact Sh2| | | |]; auto. intros j. cbn. now rewrite app_nil_r.
             ++ congruence.
             ++ intros j x Hj. apply Q7. rewrite EO. rewrite !in_app_iff in *. cbn in *. destruct Hj as [[Hj|Hj]|[Hj|[Hj|[]]]]; auto.
          -- congruence.
          -- congruence.
  Qed.

  Theorem gather c R : (forall i, In i ids -> i < length ns0) ->
    shape c ns0 R (boxes (map (fun i => (i, request i)) ids)) no_mail [] [] no_peer -> G [] (sup c) ->
    until (fun c' => answers c' = answers c)
      (fun c' => exists ns' got, gathered ns' got /\ (exists ans, F got (sup c') ans /\ answers c' = answers c ++ [ans]) /\
         shape c' ns' (fun j => R j \/ In j ids) no_mail no_mail [] [] no_peer /\ visited c' = visited c) c.
  Proof.
    intros Hb Sh HG.
    assert (E : map fst (map (fun i => (i, request i)) ids) = ids) by (rewrite map_map; cbn; apply map_id).
    eapply gather_loop with (P := map (fun i => (i, request i)) ids) (O := []) (got := []) (ns := ns0); auto.
    - rewrite map_length. destruct ids; [congruence|]. cbn. lia.
    - split; auto.
      + cbn. now rewrite app_nil_r, E.
      + intros i m Hi. apply in_map_iff in Hi. destruct Hi as (j & [= <- <-] & _). reflexivity.
      + eapply shape_ext; [exact Sh| | | |]; auto. rewrite E. intros i [?|(? & ?)]; tauto.
      + intros j m [].
  Qed.
End Gather.
