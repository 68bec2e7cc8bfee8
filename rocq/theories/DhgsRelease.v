(** Releasing sprouts in distributed HGS: the turn of one node, under every schedule. *)
From Verif Require Import Spec Base VarModel VarProofs HgsModel HgsSpec HgsProofs DhgsModel DhgsSpec DhgsNet DhgsGather DhgsOps.
From Coq Require Import QArith Permutation.
Local Open Scope nat_scope.

Section Release.
  Context {drv draw : Type}.
  Variable dnew : nat -> draw -> list vec -> drv.
  Variable dstep : draw -> drv -> drv.
  Variable dcost : drv -> Z.
  Variable dfinal : draw -> drv -> drv * list vec.
  Variable ddelegates : drv -> list vec.
  Variable hv_of : list vec -> Q.
  Variable EPSILON : Q.
  Variable C : config.
  Variable W : nat -> nat -> ndraws draw.
  Variable Wnew : nat -> draw.
  Notation system := (system drv).
  Notation node := (node drv).
  Notation receive := (receive drv draw dnew dstep dcost dfinal ddelegates hv_of EPSILON C W Wnew).
  Notation node_receive := (node_receive drv draw dnew dstep dcost dfinal ddelegates hv_of EPSILON C W Wnew).
  Notation sup_receive := (sup_receive C).
  Notation until := (until dnew dstep dcost dfinal ddelegates hv_of EPSILON C W Wnew).
  Notation shape := (shape dnew Wnew).
  Notation view := (view dnew Wnew).
  Notation fresh_node := (fresh_node drv draw dnew Wnew).
  Notation seek := (seek drv draw C).
  Notation start_sprouting := (start_sprouting drv draw C).
  Notation births := (@births draw C).
  Notation grown := (grown dnew Wnew).
  Notation sup c := (c_sup drv c). Notation actor c i := (c_nodes drv c i). Notation mail c a b := (c_mail drv c a b).
  Notation eff_request := (effect_request dnew dstep dcost dfinal ddelegates hv_of EPSILON C W Wnew).
  Notation eff_reply := (effect_reply dnew dstep dcost dfinal ddelegates hv_of EPSILON C W Wnew).
  Notation eff_peer := (effect_peer dnew dstep dcost dfinal ddelegates hv_of EPSILON C W Wnew).
  Notation eff_register := (effect_register dnew dstep dcost dfinal ddelegates hv_of EPSILON C W Wnew).
  Implicit Types (c : system) (ns : list node) (s : supervisor) (n : node).

  (** The status describes the population [p]. *)
  Definition st_of (st : status) (p : list vec) : Prop :=
    st_center st = match p with [] => Missing | _ => mean p end /\ st_len st = length p.

  Lemma redundant_iff lv next pops d : Forall2 st_of next pops ->
    exists b, delegate_redundant C lv next d = Ok b /\ (b = true <-> is_taken C lv pops d).
  Proof.
    intros F. unfold delegate_redundant, is_taken.
    enough (H : forall acc, exists b, fold_ok (fun acc st => if st_len st =? 0 then Ok acc
      else do r <- redundant (point d) (st_center st) (nth lv (min_dists C) 0%Q); Ok (acc || r)) next acc = Ok b /\
      (b = true <-> acc = true \/ exists p, In p pops /\ p <> [] /\ near (nth lv (min_dists C) 0%Q) (At (map inject_Z d)) (mean p))).
    { destruct (H false) as (b & E & I). exists b. split; [exact E|]. rewrite I. intuition discriminate. }
    induction F as [|st p next pops (Sc & Sl) _ IH]; intros acc; cbn [fold_ok].
    - exists acc. split; [reflexivity|]. split; [auto|]. intros [?|(p & [] & _)]; auto.
    - rewrite Sl. destruct p as [|v p].
      + cbn [length Nat.eqb bind]. destruct (IH acc) as (b & E & I). exists b. split; [exact E|]. rewrite I. split; (intros [H|(q & Hq & Ne & Nr)]; [auto|]); right; exists q.
        * split; [now right|auto].
        * destruct Hq as [<-|Hq]; [congruence|auto].
      + cbn [length Nat.eqb]. rewrite Sc. assert (Np : point d <> Missing) by discriminate.
        destruct (wp_total _ _ (wp_redundant False (point d) (mean (v :: p)) (nth lv (min_dists C) 0%Q) (or_intror (conj Np (mean_present (v :: p)))))) as (r & Er & Ir).
        rewrite Er. cbn [bind]. destruct (IH (acc || r)) as (b & E & I). exists b. split; [exact E|]. rewrite I, orb_true_iff. split.
        * intros [[H|H]|(q & Hq & Ne & Nr)]; [auto| |].
          -- right. exists (v :: p). split; [now left|]. split; [discriminate|]. now apply Ir.
          -- right. exists q. split; [now right|auto].
        * intros [H|(q & [<-|Hq] & Ne & Nr)]; [auto| |].
          -- left. right. now apply Ir.
          -- right. exists q. auto.
  Qed.

  Lemma seek_total w i n ds : forall r pops, Forall2 st_of (r_next r) pops -> exists v, seek w i n ds r = Ok v.
  Proof.
    induction ds as [|d ds IH]; intros r pops F; cbn [DhgsModel.seek]; [eauto|].
    destruct ((sproutiveness C <=? r_released r) || (max_sprouts_no C <=? r_alive r)); [eauto|].
    destruct (redundant_iff (S (level n)) _ _ d F) as (b & E & _). rewrite E. cbn [bind]. destruct b; [|eauto]. eapply IH. exact F.
  Qed.

  Lemma births_same lv : forall e room ds ps, births lv e room ds ps -> forall e', (forall p, p <> [] -> (In p e <-> In p e')) -> births lv e' room ds ps.
  Proof.
    assert (T : forall e e' d, (forall p, p <> [] -> (In p e <-> In p e')) -> is_taken C lv e d -> is_taken C lv e' d).
    { intros e e' d H (p & Hp & Ne & Nr). exists p. split; [now apply H|auto]. }
    induction 1 as [|e room|e room d ds ps Tk _ IH|e room d ds w i ps Tk p _ IH]; intros e' H; [constructor|constructor| |].
    - apply births_taken; [eapply T; eauto|auto].
    - apply births_free; [intros X; apply Tk; eapply T; [|exact X]; intros q Nq; symmetry; auto|]. apply IH.
      intros q Nq. rewrite !in_app_iff. specialize (H q Nq). tauto.
  Qed.

  (** What registering [m] nodes of level [lv] does to the supervisor. *)
  Record bred s (lv N m : nat) s' : Prop := {
    br_nodes : s_nodes s' = s_nodes s ++ seq N m;
    br_len : length (s_levels s') = length (s_levels s);
    br_levels : forall l ids, nth_error (s_levels s) l = Some ids -> nth_error (s_levels s') l = Some (if l =? lv then ids ++ seq N m else ids);
    br_cost : s_cost s' = s_cost s;
    br_states : s_states s' = s_states s;
    br_ratios : s_ratios s' = s_ratios s;
    br_tasks : s_tasks s' = s_tasks s
  }.
  Lemma bred_none s lv N : bred s lv N 0 s.
  Proof. split; auto; cbn [seq]; rewrite ?app_nil_r; auto. intros l ids E. rewrite app_nil_r. now destruct (l =? lv). Qed.
  Lemma bred_more s lv N m s1 s' : bred s lv N 1 s1 -> bred s1 lv (S N) m s' -> bred s lv N (S m) s'.
  Proof.
    intros [A1 A2 A3 A4 A5 A6 A7] [B1 B2 B3 B4 B5 B6 B7]. split; try congruence.
    - rewrite B1, A1, <- app_assoc. reflexivity.
    - intros l ids E. rewrite (B3 _ _ (A3 _ _ E)). destruct (l =? lv); [|reflexivity]. now rewrite <- app_assoc.
  Qed.

  Lemma with_sprouts_same n : with_sprouts n (sprouts n) = n.
  Proof. now destruct n. Qed.
  Lemma set_nth_app {A} (l l' : list A) i x : i < length l -> set_nth i x (l ++ l') = set_nth i x l ++ l'.
  Proof. revert i. induction l as [|y l IH]; intros [|i] H; cbn in *; try lia; auto. now rewrite IH by lia. Qed.
  Lemma set_nth_twice {A} (l : list A) i x y : set_nth i x (set_nth i y l) = set_nth i x l.
  Proof. revert i. induction l as [|z l IH]; intros [|i]; cbn; auto. now rewrite IH. Qed.
  Lemma grown_none i n ns lv : nth_error ns i = Some n -> grown i n ns lv [] = ns.
  Proof. intros H. unfold DhgsSpec.grown. cbn. rewrite !app_nil_r, with_sprouts_same. now apply set_nth_same. Qed.
  Lemma grown_more i n ns lv p ps : nth_error ns i = Some n ->
    grown i (add_sprout drv n (length ns)) (set_nth i (add_sprout drv n (length ns)) (ns ++ [fresh_node (length ns) lv p])) lv ps = grown i n ns lv (p :: ps).
  Proof.
    intros H. assert (Hi : i < length ns) by (apply nth_error_Some; congruence). unfold DhgsSpec.grown.
    rewrite set_nth_length, app_length, set_nth_twice, set_nth_app by auto. cbn [length seq combine map fst snd]. rewrite Nat.add_1_r, <- app_assoc. cbn [app].
    f_equal. f_equal. unfold with_sprouts, add_sprout. cbn. now rewrite <- app_assoc.
  Qed.

  (** The letter that carries a verdict of node [i] in its task [k]. *)
  Definition letter (i k : nat) n (v : verdict) : message :=
    match v with
    | Finished r => mk (r_sid r) (NReleaseSproutsEnd (node_status drv (Nd i) n) (r_created r))
    | Registers _ lv pop => mk (Nd i, k) (HRegister lv pop)
    end.
  Definition verdict_state (v : verdict) : sprouting := match v with Finished r => r | Registers r _ _ => r end.
  Record posted c ns (R : nat -> Prop) i k n v : Prop := {
    po_shape : shape c ns R no_mail (upd no_mail i [letter i k n v]) [] [] no_peer;
    po_node : nth_error ns i = Some n;
    po_task : nth_error (a_tasks drv (actor c i)) k = Some (TSprouting (verdict_state v));
    po_nodes : s_nodes (sup c) = seq 0 (length ns);
    po_levels : length (s_levels (sup c)) = 3
  }.

  Definition finished c0 ns (R : nat -> Prop) i n k0 lv ps created c : Prop :=
    shape c (grown i n ns lv ps) R no_mail (upd no_mail i [mk (Sup, k0) (NReleaseSproutsEnd (node_status drv (Nd i) n) created)]) [] [] no_peer /\
    bred (sup c0) lv (length ns) (length ps) (sup c) /\ answers c = answers c0 /\ visited c = visited c0.

  Lemma ready c ns R req rep xs sx peer i n : shape c ns R req rep xs sx peer -> R i -> nth_error ns i = Some n -> view c i n (req i) true.
  Proof. intros Sh Ri Hn. destruct (sh_node _ _ _ _ _ _ _ _ _ _ Sh i n Hn) as (b & V & B). now rewrite (B Ri) in V. Qed.

  Lemma seek_sender w i n : forall ds r v, seek w i n ds r = Ok v -> r_sender (verdict_state v) = r_sender r.
  Proof.
    induction ds as [|x ds IH]; intros r v E; cbn [DhgsModel.seek] in E; [now injection E as <-|].
    destruct (_ || _); [now injection E as <-|]. destruct (delegate_redundant _ _ _ _) as [b| |]; try discriminate. cbn [bind] in E.
    destruct b; [apply IH in E; exact E|now injection E as <-].
  Qed.
  Lemma act_ok i (a : nactor drv) n k v : a_sup drv a = Some Sup -> r_sender (verdict_state v) = Sup ->
    act drv i a n (Nd i, k) k v = Ok ({| a_node := Some n; a_sup := Some Sup; a_tasks := set_nth k (TSprouting (verdict_state v)) (a_tasks drv a) |}, [(Sup, letter i k n v)]).
  Proof. intros As Rs. unfold act. rewrite As. destruct v as [r|r lv p]; cbn in *; [rewrite Rs|]; reflexivity. Qed.

  Lemma seeking i k k0 (R : nat -> Prop) (HR : R i) : forall ds c ns n r pops v,
    (forall j, R j -> j < length ns) ->
    seek (W i k) i n ds r = Ok v -> r_alive r < max_sprouts_no C -> level n < 2 ->
    Forall2 st_of (r_next r) pops -> r_sender r = Sup -> r_sid r = (Sup, k0) -> ds = skipn (r_index r) (delegates n) ->
    posted c ns R i k n v ->
    until (fun c' => answers c' = answers c)
      (fun c' => exists ps created, births (S (level n)) pops (sproutiveness C - r_released r) ds ps /\ Forall2 st_of created ps /\
         Forall (fun st => st_alive st = true) created /\ finished c ns R i n k0 (S (level n)) ps (r_created r ++ created) c') c.
  Proof.
    induction ds as [|d ds IH]; intros c ns n r pops v Rb Sk Al Lv Fp Rs Rid Ed Po.
    - cbn in Sk. injection Sk as <-. destruct Po as [P1 P2 P3 P4 P5]. cbn [letter verdict_state] in *. apply until_now. exists [], [].
      split; [constructor|]. split; [constructor|]. split; [constructor|]. split; [|split; [apply bred_none|split; reflexivity]].
      rewrite grown_none, app_nil_r, <- Rid by auto. exact P1.
    - cbn [DhgsModel.seek] in Sk. destruct (Nat.leb_spec (sproutiveness C) (r_released r)) as [Hs|Hs].
      + (* no room *) cbn [orb] in Sk. injection Sk as <-. destruct Po as [P1 P2 P3 P4 P5]. cbn [letter verdict_state] in *. apply until_now. exists [], [].
        replace (sproutiveness C - r_released r) with 0 by lia.
        split; [constructor|]. split; [constructor|]. split; [constructor|]. split; [|split; [apply bred_none|split; reflexivity]].
        rewrite grown_none, app_nil_r, <- Rid by auto. exact P1.
      + destruct (Nat.leb_spec (max_sprouts_no C) (r_alive r)) as [Hm|Hm]; [lia|]. cbn [orb] in Sk.
        destruct (redundant_iff (S (level n)) _ _ d Fp) as (b & Eb & Ib). rewrite Eb in Sk. cbn [bind] in Sk.
        assert (Ed' : ds = skipn (S (r_index r)) (delegates n)).
        { clear - Ed. revert Ed. generalize (delegates n) (r_index r). intros l x. revert l. induction x as [|x IHx]; intros [|y l]; cbn; try discriminate; [congruence|apply IHx]. }
        destruct b.
        * (* taken *)
          eapply until_weaken; [eapply IH with (pops := pops); [exact Rb|exact Sk|..]; cbn; auto|auto|].
          cbn. intros c' (ps & created & B & H). exists ps, created. split; [|exact H]. apply births_taken; [now apply Ib|exact B].
        * (* a new sprout *)
          injection Sk as <-. destruct Po as [P1 P2 P3 P4 P5]. cbn [letter verdict_state] in *.
          set (p := d :: w_mutants draw (W i k) (r_index r) d (nth (S (level n)) (population_sizes C) 0 - 1)) in *.
          set (st := status_of (Nd i) (S (level n)) true false p) in *.
          assert (Hi : i < length ns) by (apply nth_error_Some; congruence).
          eapply drift; [exact P1| | |].
          -- intros c1 (_ & K & _). congruence.
          -- exists i, 0. right. left. split; [auto|]. rewrite upd_same. discriminate.
          -- intros c1 o Sh1 (K1 & K2 & K3 & K4) Rl. destruct Rl as [j nj m q Hj V Hr|j m q Hj Hr Hm'|m q Hx|m q Hx|a b m q Hx]; try discriminate.
             destruct (Nat.eq_dec j i) as [->|Ne]; [|rewrite upd_other in Hr by auto; discriminate]. rewrite upd_same in Hr. injection Hr as <- Hq.
             destruct (nth_lt (s_levels (sup c)) (S (level n))) as (ids & Hids); [lia|].
             edestruct eff_register as (c2 & Ec & Sh2 & T1 & T2 & T3 & T4); [exact Sh1|exact Hj|rewrite upd_same; rewrite <- Hq; reflexivity|exact Hm'| |exact Rb|reflexivity|].
             { unfold DhgsModel.sup_receive. cbn [m_body m_id]. rewrite K1, (get_Some _ _ _ Hids), P4, seq_length. cbn [bind]. reflexivity. }
             exists c2. split; [exact Ec|].
             assert (A2 : actor c2 i = actor c i). { rewrite T2. destruct (K4 i n P2) as (E & _); [|exact E]. exact (ready _ _ _ _ _ _ _ _ _ _ P1 HR P2). }
             set (r2 := {| r_sender := r_sender r; r_sid := r_sid r; r_alive := r_alive r; r_next := r_next r ++ [st]; r_checked := r_checked r;
                             r_released := S (r_released r); r_index := S (r_index r); r_created := r_created r ++ [st] |}).
             set (n2 := add_sprout drv n (length ns)).
             assert (Fp2 : Forall2 st_of (r_next r2) (pops ++ [p])). { apply Forall2_app; [exact Fp|]. constructor; [|constructor]. split; reflexivity. }
             destruct (seek_total (W i k) i n2 ds r2 (pops ++ [p]) Fp2) as (v2 & Ev2).
             eapply drift; [exact Sh2| | |].
             ++ intros c3 (_ & L & _). congruence.
             ++ exists i, 0. left. split; [rewrite app_length; lia|]. rewrite Nat.eqb_refl. discriminate.
             ++ intros c3 o Sh3 (L1 & L2 & L3 & L4) Rl.
                destruct Rl as [j nj m1 q1 Hnj Vj Hrj|j m1 q1 Hnj Hrj Hmj|m1 q1 Hxj|m1 q1 Hxj|j j' m1 q1 Hxj]; try discriminate.
                2:{ rewrite <- Hq in Hrj. unfold upd in Hrj. destruct (j =? i); discriminate. }
                cbn beta in Hrj. destruct (Nat.eqb_spec j i) as [Ej|Ne]; [subst j|discriminate]. cbn in Hrj. injection Hrj as <- <-.
                assert (Hn1 : nth_error (ns ++ [fresh_node (length ns) (S (level n)) p]) i = Some n) by (rewrite nth_error_app1; auto).
                rewrite Hn1 in Hnj. injection Hnj as <-.
                assert (A3 : actor c3 i = actor c i). { destruct (L4 i n Hn1) as (E & _); [|congruence]. exact (ready _ _ _ _ _ _ _ _ _ _ Sh2 HR Hn1). }
                inversion Vj as [V1 V2 V3| |].
                assert (Er : node_receive i (actor c3 i) Sup (mk (Nd i, k) (HRegistered (length ns))) =
                  Ok ({| a_node := Some n2; a_sup := Some Sup; a_tasks := set_nth k (TSprouting (verdict_state v2)) (a_tasks drv (actor c3 i)) |},
                      [(Sup, letter i k n2 v2)])).
                { unfold DhgsModel.node_receive. cbn [m_id m_body]. rewrite V1, Nat.eqb_refl.
                  assert (Lk : (k <? length (a_tasks drv (actor c3 i))) = true) by (apply Nat.ltb_lt; rewrite A3; apply nth_error_Some; congruence).
                  rewrite Lk. cbn [andb]. unfold node_continue. rewrite A3, (get_Some _ _ _ P3). cbn [bind]. change (delegates (add_sprout drv n (length ns))) with (delegates n).
                  cbn [r_index]. rewrite <- Ed'. fold n2 r2. 
                  replace (seek (W i k) i n2 ds _) with (Ok v2) by (symmetry; exact Ev2). cbn [bind].
                  rewrite <- A3. apply act_ok; [exact V2|]. rewrite (seek_sender _ _ _ _ _ _ Ev2). exact Rs. }
                edestruct eff_request as (c4 & Ec4 & Sh4 & U1 & U2 & U3 & U4); [exact Sh3|exact Hn1|cbn beta; rewrite Nat.eqb_refl; exact Vj|cbn beta; rewrite Nat.eqb_refl; reflexivity|exact Er|reflexivity|reflexivity|reflexivity|].
                exists c4. split; [exact Ec4|]. cbn [is_release m_body] in U4. rewrite app_nil_r in U4.
                assert (Eq : answers c4 = answers c) by congruence. rewrite <- Eq.
                eapply until_weaken; [eapply IH with (c := c4) (ns := set_nth i n2 (ns ++ [fresh_node (length ns) (S (level n)) p])) (n := n2) (r := r2) (v := v2) (pops := pops ++ [p])|auto|].
                ** intros j Rj. rewrite set_nth_length, app_length. specialize (Rb j Rj). lia.
                ** exact Ev2.
                ** exact Al.
                ** exact Lv.
                ** exact Fp2.
                ** exact Rs.
                ** exact Rid.
                ** exact Ed'.
                ** assert (Un : undone [letter i k n2 v2] = [letter i k n2 v2]) by (destruct v2; reflexivity).
                   split.
                   --- eapply shape_ext; [exact Sh4| | | |].
                       +++ intros j Rj. now left.
                       +++ intros j. unfold upd. cbn beta. destruct (j =? i); reflexivity.
                       +++ intros j. cbn [to filter map fst addr_eqb snd]. unfold to. cbn. unfold upd. rewrite <- Hq. destruct (Nat.eqb_spec j i); [|reflexivity].
                           rewrite Nat.eqb_refl. exact Un.
                       +++ intros a b. unfold to. cbn. destruct (a =? i); reflexivity.
                   --- now apply set_nth_at with n.
                   --- rewrite U2, Nat.eqb_refl. cbn [a_tasks]. rewrite A3. eapply set_nth_at. exact P3.
                   --- rewrite U1, L1, T1. cbn. rewrite set_nth_length, app_length, seq_app. reflexivity.
                   --- rewrite U1, L1, T1. cbn. rewrite set_nth_length. exact P5.
                ** intros c' (ps & created & B & Fs & Fa & (F1 & F2 & F3 & F4)). exists (p :: ps), (st :: created). split; [|split; [|split; [|split; [|split; [|split]]]]].
                   --- replace (sproutiveness C - r_released r) with (S (sproutiveness C - r_released r2)) by (cbn; lia).
                       unfold p. apply births_free; [intros X; apply Ib in X; discriminate|]. exact B.
                   --- constructor; [split; reflexivity|exact Fs].
                   --- constructor; [reflexivity|exact Fa].
                   --- change (level n2) with (level n) in F1. unfold n2 in F1. rewrite (grown_more i n ns (S (level n)) p ps P2) in F1. cbn [r_created r2] in F1. rewrite <- app_assoc in F1. exact F1.
                   --- eapply bred_more; [|rewrite set_nth_length, app_length, Nat.add_1_r in F2; exact F2].
                       rewrite U1, L1, T1. split; cbn; auto.
                       +++ now rewrite P4.
                       +++ apply set_nth_length.
                       +++ intros l ids' El. rewrite nth_error_set_nth, (Nat.eqb_sym (S (level n)) l). destruct (Nat.eqb_spec l (S (level n))) as [->|]; [|exact El].
                           rewrite Hids in El |- *. injection El as <-. reflexivity.
                   --- congruence.
                   --- congruence.
  Qed.

  Definition fresh_sprouting (r : sprouting) (k0 : nat) (pops : list (list vec)) : Prop :=
    r_sender r = Sup /\ r_sid r = (Sup, k0) /\ Forall2 st_of (r_next r) pops /\ r_released r = 0 /\ r_index r = 0 /\ r_created r = [].
  Definition rule n (living : nat) pops ps : Prop :=
    if (level n <? max_level C) && (living <? max_sprouts_no C) then births (S (level n)) pops (sproutiveness C) (delegates n) ps else ps = [].

  Hypothesis Htop : max_level C <= 2.

  Lemma start_total i k n r k0 pops : fresh_sprouting r k0 pops -> exists v, start_sprouting (W i k) i n r = Ok v /\ r_sender (verdict_state v) = Sup.
  Proof.
    intros (F1 & F2 & F3 & _). unfold DhgsModel.start_sprouting. destruct (_ && _).
    - destruct (seek_total (W i k) i n (delegates n) r pops F3) as (v & E). exists v. split; [exact E|]. now rewrite (seek_sender _ _ _ _ _ _ E).
    - exists (Finished r). auto.
  Qed.

  Lemma deciding i k k0 (R : nat -> Prop) (HR : R i) c ns n r pops v : (forall j, R j -> j < length ns) ->
    start_sprouting (W i k) i n r = Ok v -> fresh_sprouting r k0 pops -> posted c ns R i k n v ->
    until (fun c' => answers c' = answers c)
      (fun c' => exists ps created, rule n (r_alive r) pops ps /\ Forall2 st_of created ps /\ Forall (fun st => st_alive st = true) created /\
         finished c ns R i n k0 (S (level n)) ps created c') c.
  Proof.
    intros Rb Es (F1 & F2 & F3 & F4 & F5 & F6) Po. unfold DhgsModel.start_sprouting in Es. unfold rule.
    destruct (Nat.ltb_spec (level n) (max_level C)) as [Ll|Ll]; cbn [andb] in *.
    1: destruct (Nat.ltb_spec (r_alive r) (max_sprouts_no C)) as [La|La]; cbn [andb] in *.
    1: destruct (Nat.eqb_spec (length (delegates n)) 0) as [Ld|Ld]; cbn [negb] in *.
    2:{ eapply until_weaken; [eapply seeking with (R := R) (ns := ns) (r := r) (pops := pops) (v := v) (k0 := k0); try exact Es; auto|auto|].
        - lia.
        - now rewrite F5.
        - intros c' (ps & created & B & H). rewrite F4, Nat.sub_0_r in B. rewrite F6 in H. exists ps, created. split; [exact B|exact H]. }
    all: injection Es as <-; destruct Po as [P1 P2 P3 P4 P5]; cbn [letter verdict_state] in *; apply until_now; exists [], [];
      (split; [|split; [constructor|split; [constructor|split; [|split; [apply bred_none|split; reflexivity]]]]]);
      [|rewrite grown_none by auto; rewrite F6, F2 in P1; exact P1].
    - destruct (delegates n); [constructor|discriminate].
    - reflexivity.
    - reflexivity.
  Qed.

  (** The questions of node [i] to its sprouts ([P] not read, [O] answers under way). *)
  Definition peers (i : nat) (P O : list (nat * message)) (a b : nat) : list message :=
    (if a =? i then boxes P b else []) ++ (if b =? i then boxes O a else []).

  Lemma filter_perm_length {A} (f : A -> bool) l l' : Permutation l l' -> length (filter f l) = length (filter f l').
  Proof. induction 1; cbn; auto; try congruence. - destruct (f x); cbn; auto. - destruct (f x), (f y); reflexivity. Qed.

  Lemma boxes_one b m a : boxes [(b, m)] a = if a =? b then [m] else [].
  Proof. unfold boxes. cbn. rewrite (Nat.eqb_sym b a). now destruct (a =? b). Qed.

  Lemma checking i k k0 (R : nat -> Prop) (HR : R i) n pops : forall m c ns P O got r, 2 * length P + length O <= m -> 0 < length P + length O ->
    shape c ns R no_mail no_mail [] [] (peers i P O) -> (forall j, In j (sprouts n) -> R j /\ j <> i) -> nth_error ns i = Some n -> NoDup (sprouts n) ->
    (forall j, R j -> j < length ns) ->
    Permutation (map fst P ++ map fst O ++ got) (sprouts n) ->
    (forall j x, In (j, x) P -> x = mk (Nd i, k) NCheckStatus) ->
    (forall j x, In (j, x) O -> exists nj, nth_error ns j = Some nj /\ x = mk (Nd i, k) (NStatus (node_status drv (Nd i) nj))) ->
    nth_error (a_tasks drv (actor c i)) k = Some (TSprouting r) -> r_checked r = length got -> r_alive r = length (filter (alive_at ns) got) ->
    fresh_sprouting r k0 pops -> s_nodes (sup c) = seq 0 (length ns) -> length (s_levels (sup c)) = 3 ->
    until (fun c' => answers c' = answers c)
      (fun c' => exists v r', start_sprouting (W i k) i n r' = Ok v /\ fresh_sprouting r' k0 pops /\ r_alive r' = living_sprouts ns n /\
         posted c' ns R i k n v /\ sup c' = sup c /\ answers c' = answers c /\ visited c' = visited c) c.
  Proof.
    induction m as [|m IH]; intros c ns P O got r Hm Hpos Sh Sp Hn ND Rb Pm HP HO Ht Hc Ha Fr Sn Sl; [lia|].
    assert (NDp : NoDup (map fst P ++ map fst O ++ got)) by (eapply Permutation_NoDup; [apply Permutation_sym; exact Pm|exact ND]).
    assert (InP : forall j, In j (map fst P) -> In j (sprouts n)) by (intros j Hj; eapply Permutation_in; [exact Pm|]; rewrite !in_app_iff; auto).
    assert (InO : forall j, In j (map fst O) -> In j (sprouts n)) by (intros j Hj; eapply Permutation_in; [exact Pm|]; rewrite !in_app_iff; auto).
    assert (Pi : boxes P i = []) by (apply boxes_none; intros X; apply InP in X; now apply Sp in X).
    assert (Oi : boxes O i = []) by (apply boxes_none; intros X; apply InO in X; now apply Sp in X).
    eapply drift; [exact Sh| | |].
    - intros c1 (_ & K & _). exact K.
    - destruct P as [|[j x] P].
      + destruct O as [|[j x] O]; [cbn in Hpos; lia|]. exists j, i. right. right. right. right. unfold peers. rewrite Nat.eqb_refl.
        intros X. apply app_eq_nil in X. destruct X as (_ & X). revert X. apply boxes_In. now left.
      + exists i, j. right. right. right. right. unfold peers. rewrite Nat.eqb_refl. intros X. apply app_eq_nil in X. destruct X as (X & _). revert X. apply boxes_In. now left.
    - intros c1 o Sh1 (K1 & K2 & K3 & K4) Rl. destruct Rl as [j nj x q Hnj V Hr|j x q Hj Hr Hm'|x q Hx|x q Hx|a b x q Hx]; try discriminate.
      assert (Ai : actor c1 i = actor c i). { destruct (K4 i n Hn) as (E & _); [|exact E]. exact (ready _ _ _ _ _ _ _ _ _ _ Sh HR Hn). }
      unfold peers in Hx. destruct (Nat.eqb_spec a i) as [Ea|Na]; [subst a|].
      + (* a sprout reads the question *)
        assert (Hb : boxes P b = x :: q). { destruct (b =? i) eqn:Eb; rewrite ?Oi, app_nil_r in Hx; exact Hx. }
        assert (Nb : b <> i) by (intros ->; rewrite Pi in Hb; discriminate).
        destruct (boxes_take _ _ _ _ Hb) as (P1 & P2 & EP & HPb).
        assert (Ib : In b (map fst P)) by (rewrite EP, map_app; apply in_or_app; right; now left).
        assert (x = mk (Nd i, k) NCheckStatus) as -> by (apply (HP b); rewrite EP; apply in_or_app; right; now left).
        destruct (Sp b (InP b Ib)) as (Rb' & _). destruct (nth_lt ns b (Rb b Rb')) as (nb & Hnb).
        pose proof (ready _ _ _ _ _ _ _ _ _ _ Sh1 Rb' Hnb) as Vb. inversion Vb as [V1 V2 V3| |].
        set (ans := mk (Nd i, k) (NStatus (node_status drv (Nd i) nb))).
        edestruct eff_peer as (c2 & Ec & Sh2 & T1 & T2 & T3 & T4); [exact Sh1|exact Hnb|exact Vb| | | | | |].
        { unfold peers. rewrite Nat.eqb_refl, neqb, app_nil_r by auto. exact Hb. }
        { unfold DhgsModel.node_receive. cbn [m_id m_body]. rewrite V1. rewrite (neqb i b) by auto. cbn [andb node_start]. reflexivity. }
        { reflexivity. }
        { exact V2. }
        { reflexivity. }
        exists c2. split; [exact Ec|]. cbn [is_release m_body] in T4. rewrite app_nil_r in T4. rewrite set_nth_same in Sh2 by exact Hnb.
        assert (Eq : answers c2 = answers c) by congruence. rewrite <- Eq.
        eapply until_weaken; [eapply (IH c2 ns (P1 ++ P2) (O ++ [(b, ans)]) got r)|auto|].
        * rewrite EP in Hm. rewrite !app_length in *. cbn in *. lia.
        * rewrite !app_length. cbn. lia.
        * eapply shape_ext; [exact Sh2| | | |].
          -- intros j Rj. now left.
          -- reflexivity.
          -- intros j. unfold to. cbn. unfold upd. destruct (j =? b); reflexivity.
          -- intros a' b'. unfold peers. rewrite (boxes_app O), boxes_one, <- HPb. unfold upd, to. cbn [map filter fst snd addr_eqb].
             destruct (Nat.eqb_spec a' i) as [Ea'|Na'].
             ++ subst a'. rewrite (neqb i b) by auto. cbn [andb map]. rewrite Oi. cbn [app].
                destruct (Nat.eqb_spec b' b) as [->|Nb']; cbn [app]; [rewrite (neqb b i) by auto; now rewrite !app_nil_r|]. destruct (b' =? i); now rewrite ?app_nil_r.
             ++ cbn [andb app]. destruct (Nat.eqb_spec a' b) as [->|Na'']; [|destruct (b' =? i); now rewrite ?app_nil_r].
                rewrite (Nat.eqb_sym i b'). destruct (b' =? i); reflexivity.
        * exact Sp.
        * exact Hn.
        * exact ND.
        * exact Rb.
        * eapply Permutation_trans; [|exact Pm]. rewrite EP, !map_app. cbn. rewrite <- !app_assoc. apply Permutation_app_head. cbn.
          apply Permutation_sym. rewrite !app_assoc. apply Permutation_cons_app. now rewrite <- app_assoc.
        * intros j y Hj. apply (HP j). rewrite EP. rewrite in_app_iff in *. cbn. tauto.
        * intros j y Hj. apply in_app_iff in Hj. destruct Hj as [Hj|[[= <- <-]|[]]]; [auto|]. exists nb. auto.
        * rewrite T2, neqb by auto. now rewrite Ai.
        * exact Hc.
        * exact Ha.
        * exact Fr.
        * now rewrite T1, K1.
        * now rewrite T1, K1.
        * intros c' (v & r' & H1 & H2 & H3 & H4 & H5 & H6 & H7). exists v, r'. split; [exact H1|split; [exact H2|split; [exact H3|split; [exact H4|split; [congruence|split; congruence]]]]].
      + (* node i reads an answer *)
        cbn [app] in Hx. destruct (Nat.eqb_spec b i) as [Eb|Nb]; [subst b|discriminate].
        destruct (boxes_take _ _ _ _ Hx) as (O1 & O2 & EO & HOa).
        destruct (HO a x) as (na & Hna & ->); [rewrite EO; apply in_or_app; right; now left|].
        pose proof (ready _ _ _ _ _ _ _ _ _ _ Sh1 HR Hn) as Vi. inversion Vi as [V1 V2 V3| |].
        set (r2 := {| r_sender := r_sender r; r_sid := r_sid r; r_alive := (if alive na then 1 else 0) + r_alive r; r_next := r_next r;
                     r_checked := S (r_checked r); r_released := r_released r; r_index := r_index r; r_created := r_created r |}).
        assert (Fr2 : fresh_sprouting r2 k0 pops) by exact Fr.
        assert (Ha2 : r_alive r2 = length (filter (alive_at ns) (got ++ [a]))).
        { rewrite filter_app, app_length. cbn. unfold alive_at at 2. rewrite Hna. rewrite Ha. destruct (alive na); cbn; lia. }
        assert (Pm2 : Permutation (map fst P ++ map fst (O1 ++ O2) ++ (got ++ [a])) (sprouts n)).
        { eapply Permutation_trans; [|exact Pm]. apply Permutation_app_head. rewrite EO, !map_app. cbn. rewrite <- !app_assoc. apply Permutation_app_head. cbn.
          apply Permutation_sym. rewrite !app_assoc. apply Permutation_cons_app. now rewrite app_nil_r. }
        pose proof (Permutation_length Pm2) as Len. rewrite !app_length, !map_length, app_length in Len. cbn in Len.
        assert (Lk : (k <? length (a_tasks drv (actor c1 i))) = true) by (apply Nat.ltb_lt; rewrite Ai; apply nth_error_Some; congruence).
        destruct (Nat.eq_dec (length P + length (O1 ++ O2)) 0) as [Z|Z].
        * (* the last one *)
          assert (P = [] /\ O1 ++ O2 = []) as (-> & Eo) by (destruct P, (O1 ++ O2); cbn in Z; auto; lia). rewrite Eo in Pm2. cbn in Pm2.
          rewrite app_length in Z. cbn [length] in Z, Len.
          destruct (start_total i k n r2 k0 pops Fr2) as (v & Ev & Rv).
          edestruct eff_peer with (p := a) as (c2 & Ec & Sh2 & T1 & T2 & T3 & T4); [exact Sh1|exact Hn|exact Vi| | | | | |].
          { unfold peers. rewrite Nat.eqb_refl, neqb by auto. exact Hx. }
          { unfold DhgsModel.node_receive. cbn [m_id m_body]. rewrite V1, Nat.eqb_refl, Lk. cbn [andb]. unfold node_continue. rewrite Ai, (get_Some _ _ _ Ht). cbn [bind].
            cbn [r_checked]. rewrite Hc. destruct (Nat.eqb_spec (S (length got)) (length (sprouts n))); [|lia]. 
            replace (start_sprouting (W i k) i n _) with (Ok v) by (symmetry; rewrite <- Ev; unfold r2; rewrite Hc; reflexivity). cbn [bind]. rewrite <- Ai. apply act_ok; [exact V2|exact Rv]. }
          { reflexivity. }
          { reflexivity. }
          { reflexivity. }
          exists c2. split; [exact Ec|]. cbn [is_release m_body] in T4. rewrite app_nil_r in T4. rewrite set_nth_same in Sh2 by exact Hn.
          apply until_now. exists v, r2. split; [exact Ev|]. split; [exact Fr2|]. split; [|split; [|split; [congruence|split; congruence]]].
          -- rewrite Ha2. unfold living_sprouts. now apply filter_perm_length.
          -- assert (Un : undone [letter i k n v] = [letter i k n v]).
             { destruct v; reflexivity. }
             split.
             ++ eapply shape_ext; [exact Sh2| | | |].
                ** intros j Rj. now left.
                ** reflexivity.
                ** intros j. unfold to. cbn. unfold upd. destruct (j =? i); [exact Un|reflexivity].
                ** intros a' b'. unfold to. cbn. unfold peers. destruct (Nat.eqb_spec b' i) as [->|Nb'].
                   --- pose proof (HOa a') as Hz. unfold upd in Hz. rewrite Eo in Hz. destruct (Nat.eqb_spec a' a) as [Ea'|Na'].
                       +++ cbn [andb]. cbn in Hz. rewrite Hz. destruct (a' =? i); reflexivity.
                       +++ cbn [andb]. rewrite Hz. destruct (a' =? i); reflexivity.
                   --- rewrite andb_false_r. destruct (a' =? i); reflexivity.
             ++ exact Hn.
             ++ rewrite T2, Nat.eqb_refl. cbn [a_tasks]. rewrite Ai. eapply set_nth_at. exact Ht.
             ++ now rewrite T1, K1.
             ++ now rewrite T1, K1.
        * (* more to come *)
          edestruct eff_peer with (p := a) as (c2 & Ec & Sh2 & T1 & T2 & T3 & T4); [exact Sh1|exact Hn|exact Vi| | | | | |].
          { unfold peers. rewrite Nat.eqb_refl, neqb by auto. exact Hx. }
          { unfold DhgsModel.node_receive. cbn [m_id m_body]. rewrite V1, Nat.eqb_refl, Lk. cbn [andb]. unfold node_continue. rewrite Ai, (get_Some _ _ _ Ht). cbn [bind].
            cbn [r_checked]. rewrite Hc. destruct (Nat.eqb_spec (S (length got)) (length (sprouts n))) as [Y|Y]; [exfalso; rewrite app_length in Z; lia|]. reflexivity. }
          { reflexivity. }
          { cbn [a_sup]. rewrite <- Ai. exact V2. }
          { reflexivity. }
          exists c2. split; [exact Ec|]. cbn [is_release m_body] in T4. rewrite app_nil_r in T4. rewrite set_nth_same in Sh2 by exact Hn.
          assert (Eq : answers c2 = answers c) by congruence. rewrite <- Eq.
          eapply until_weaken; [eapply (IH c2 ns P (O1 ++ O2) (got ++ [a]) r2)|auto|].
          -- rewrite EO in Hm. rewrite !app_length in *. cbn in *. lia.
          -- lia.
          -- eapply shape_ext; [exact Sh2| | | |].
             ++ intros j Rj. now left.
             ++ reflexivity.
             ++ intros j. unfold to. cbn. unfold upd. destruct (j =? i); reflexivity.
             ++ intros a' b'. unfold to. cbn. unfold peers. rewrite <- HOa. unfold upd. destruct (Nat.eqb_spec b' i) as [->|Nb'].
                ** rewrite andb_true_r. destruct (Nat.eqb_spec a' a) as [->|Na'].
                   --- rewrite (neqb a i) by auto. now rewrite app_nil_r.
                   --- destruct (a' =? i); now rewrite !app_nil_r.
                ** rewrite andb_false_r. destruct (a' =? i); now rewrite !app_nil_r.
          -- exact Sp.
          -- exact Hn.
          -- exact ND.
          -- exact Rb.
          -- exact Pm2.
          -- exact HP.
          -- intros j y Hj. apply HO. rewrite EO. rewrite in_app_iff in *. cbn. tauto.
          -- rewrite T2, Nat.eqb_refl. cbn [a_tasks]. erewrite set_nth_at by exact Ht. unfold r2. now rewrite Hc.
          -- rewrite app_length. cbn. rewrite Hc. lia.
          -- exact Ha2.
          -- exact Fr2.
          -- now rewrite T1, K1.
          -- now rewrite T1, K1.
          -- intros c' (v & r' & H1 & H2 & H3 & H4 & H5 & H6 & H7). exists v, r'. split; [exact H1|split; [exact H2|split; [exact H3|split; [exact H4|split; [congruence|split; congruence]]]]].
  Qed.

  Theorem turn_until i k0 (R : nat -> Prop) (HR : R i) nxt pops c ns n : (forall j, R j -> j < length ns) ->
    shape c ns R (upd no_mail i [mk (Sup, k0) (NReleaseSprouts nxt)]) no_mail [] [] no_peer ->
    nth_error ns i = Some n -> (forall j, In j (sprouts n) -> R j /\ j <> i) -> NoDup (sprouts n) -> Forall2 st_of nxt pops ->
    s_nodes (sup c) = seq 0 (length ns) -> length (s_levels (sup c)) = 3 ->
    until (fun c' => answers c' = answers c)
      (fun c' => exists ps created, (if ripe n then rule n (living_sprouts ns n) pops ps else ps = []) /\ Forall2 st_of created ps /\
         Forall (fun st => st_alive st = true) created /\
         shape c' (grown i n ns (S (level n)) ps) R no_mail (upd no_mail i [mk (Sup, k0) (NReleaseSproutsEnd (node_status drv (Nd i) n) created)]) [] [] no_peer /\
         bred (sup c) (S (level n)) (length ns) (length ps) (sup c') /\ answers c' = answers c /\ visited c' = visited c ++ [i]) c.
  Proof.
    intros Rb Sh Hn Sp ND Fp Sn Sl. assert (Hi : i < length ns) by auto.
    eapply drift; [exact Sh| | |].
    - intros c1 (_ & K & _). exact K.
    - exists i, 0. left. split; [auto|]. rewrite upd_same. discriminate.
    - intros c1 o Sh1 (K1 & K2 & K3 & K4) Rl. destruct Rl as [j nj x q Hnj V Hr|j x q Hj Hr Hm'|x q Hx|x q Hx|a b x q Hx]; try discriminate.
      destruct (Nat.eq_dec j i) as [Ej|Nj]; [subst j|rewrite upd_other in Hr by auto; discriminate]. rewrite Hn in Hnj. injection Hnj as <-.
      rewrite upd_same in Hr. injection Hr as <- <-. inversion V as [V1 V2 V3| |].
      set (k := length (a_tasks drv (actor c1 i))).
      set (r := {| r_sender := Sup; r_sid := (Sup, k0); r_alive := 0; r_next := nxt; r_checked := 0; r_released := 0; r_index := 0; r_created := [] |}).
      assert (Fr : fresh_sprouting r k0 pops) by (repeat split; auto).
      assert (Lt : nth_error (a_tasks drv (actor c1 i) ++ [TSprouting r]) k = Some (TSprouting r)) by (unfold k; rewrite nth_error_app2, Nat.sub_diag; auto).
      (* the node has decided *)
      assert (Dec : forall v c2, start_sprouting (W i k) i n r = Ok v \/ (v = Finished r /\ ripe n = false) ->
        receive c1 Sup (Nd i) (mk (Sup, k0) (NReleaseSprouts nxt)) [] = Ok c2 ->
        shape c2 (set_nth i n ns) (fun j => R j \/ j = i) (upd (upd no_mail i [mk (Sup, k0) (NReleaseSprouts nxt)]) i [])
          (upd no_mail i (no_mail i ++ undone (to Sup [(Sup, letter i k n v)]))) [] [] (fun a b => no_peer a b ++ if a =? i then to (Nd b) [(Sup, letter i k n v)] else []) ->
        sup c2 = sup c1 -> a_tasks drv (actor c2 i) = set_nth k (TSprouting (verdict_state v)) (a_tasks drv (actor c1 i) ++ [TSprouting r]) -> posted c2 ns R i k n v).
      { intros v c2 _ _ Sh2 T1 T2. rewrite set_nth_same in Sh2 by exact Hn.
        assert (Un : undone [letter i k n v] = [letter i k n v]) by (destruct v; reflexivity). split.
        - eapply shape_ext; [exact Sh2| | | |].
          + intros j Rj. now left.
          + intros j. unfold upd. destruct (j =? i); reflexivity.
          + intros j. unfold to. cbn. unfold upd. destruct (j =? i); [exact Un|reflexivity].
          + intros a b. unfold to. cbn. destruct (a =? i); reflexivity.
        - exact Hn.
        - rewrite T2. eapply set_nth_at. exact Lt.
        - now rewrite T1, K1.
        - now rewrite T1, K1. }
      destruct (ripe n) eqn:Rp.
      + destruct (sprouts n) as [|j0 js] eqn:Es.
        * (* no sprouts to ask *)
          destruct (start_total i k n r k0 pops Fr) as (v & Ev & Rv).
          edestruct eff_request as (c2 & Ec & Sh2 & T1 & T2 & T3 & T4); [exact Sh1|exact Hn|exact V|apply upd_same| | | | |].
          { unfold DhgsModel.node_receive. cbn [m_id m_body]. rewrite V1. unfold node_start. fold k. rewrite Rp, Es. fold r. rewrite Ev. cbn [bind].
            apply act_ok; [exact V2|exact Rv]. }
          { reflexivity. }
          { reflexivity. }
          { reflexivity. }
          exists c2. split; [exact Ec|]. assert (Eq : answers c2 = answers c) by congruence. rewrite <- Eq.
          eapply until_weaken; [eapply (deciding i k k0 R HR c2 ns n r pops v)|auto|]; auto.
          -- eapply Dec; eauto. rewrite T2, Nat.eqb_refl. reflexivity.
          -- intros c' (ps & created & H1 & H2 & H3 & (H4 & H5 & H6 & H7)). exists ps, created. rewrite T1, K1 in H5.
             split; [|split; [exact H2|split; [exact H3|split; [exact H4|split; [exact H5|split; [exact H6|]]]]]].
             ++ unfold living_sprouts. rewrite Es. exact H1.
             ++ rewrite H7, T4, K3. reflexivity.
        * (* ask the sprouts *)
          rewrite <- Es in *. set (qs := map (fun j => (j, mk (Nd i, k) NCheckStatus)) (sprouts n)).
          assert (Eqs : map fst qs = sprouts n) by (unfold qs; rewrite map_map; cbn; apply map_id).
          assert (Er : node_receive i (actor c1 i) Sup (mk (Sup, k0) (NReleaseSprouts nxt)) =
            Ok ({| a_node := Some n; a_sup := a_sup drv (actor c1 i); a_tasks := a_tasks drv (actor c1 i) ++ [TSprouting r] |},
                map (fun j => (Nd j, mk (Nd i, k) NCheckStatus)) (sprouts n))).
          { unfold DhgsModel.node_receive. cbn [m_id m_body]. rewrite V1. unfold node_start. fold k. rewrite Rp. fold r. rewrite Es. reflexivity. }
          edestruct eff_request as (c2 & Ec & Sh2 & T1 & T2 & T3 & T4); [exact Sh1|exact Hn|exact V|apply upd_same| | | | |].
          { exact Er. }
          { reflexivity. }
          { exact V2. }
          { apply to_map_none. discriminate. }
          rewrite set_nth_same in Sh2 by exact Hn.
          exists c2. split; [exact Ec|]. assert (Eq : answers c2 = answers c) by congruence. rewrite <- Eq.
          eapply until_trans; [eapply (checking i k k0 R HR n pops (2 * length qs + 0) c2 ns qs [] [] r)|].
          -- cbn. lia.
          -- unfold qs. rewrite map_length, Es. cbn. lia.
          -- eapply shape_ext; [exact Sh2| | | |].
             ++ intros j Rj. now left.
             ++ intros j. unfold upd. destruct (j =? i); reflexivity.
             ++ intros j. rewrite (to_map_none (sprouts n) (fun _ => mk (Nd i, k) NCheckStatus) Sup) by discriminate. unfold upd. destruct (j =? i); reflexivity.
             ++ intros a b. unfold peers. cbn [app no_peer]. destruct (a =? i); [|destruct (b =? i); reflexivity].
                rewrite (to_map_nodes (sprouts n) (fun _ => mk (Nd i, k) NCheckStatus)). destruct (b =? i); now rewrite app_nil_r.
          -- exact Sp.
          -- exact Hn.
          -- exact ND.
          -- exact Rb.
          -- rewrite Eqs. cbn. now rewrite app_nil_r.
          -- intros j x Hj. unfold qs in Hj. apply in_map_iff in Hj. destruct Hj as (? & [= _ <-] & _). reflexivity.
          -- intros j x [].
          -- rewrite T2, Nat.eqb_refl. exact Lt.
          -- reflexivity.
          -- reflexivity.
          -- exact Fr.
          -- now rewrite T1, K1.
          -- now rewrite T1, K1.
          -- intros c3 (v & r' & G1 & G2 & G3 & G4 & G5 & G6 & G7). rewrite <- G6.
             eapply until_weaken; [eapply (deciding i k k0 R HR c3 ns n r' pops v)|auto|]; auto.
             intros c' (ps & created & H1 & H2 & H3 & (H4 & H5 & H6 & H7)). exists ps, created. rewrite G5, T1, K1 in H5.
             split; [|split; [exact H2|split; [exact H3|split; [exact H4|split; [exact H5|split; [congruence|]]]]]].
             ++ now rewrite <- G3.
             ++ rewrite H7, G7, T4, K3. reflexivity.
      + (* not ripe *)
        edestruct eff_request as (c2 & Ec & Sh2 & T1 & T2 & T3 & T4); [exact Sh1|exact Hn|exact V|apply upd_same| | | | |].
        { unfold DhgsModel.node_receive. cbn [m_id m_body]. rewrite V1. unfold node_start. fold k. rewrite Rp. fold r.
          apply act_ok; [exact V2|reflexivity]. }
        { reflexivity. }
        { reflexivity. }
        { reflexivity. }
        exists c2. split; [exact Ec|].
        assert (Po : posted c2 ns R i k n (Finished r)). { eapply Dec; eauto. rewrite T2, Nat.eqb_refl. reflexivity. }
        apply until_now. exists [], []. split; [reflexivity|]. split; [constructor|]. split; [constructor|]. split; [|split; [|split]].
        * rewrite grown_none by exact Hn. exact (po_shape _ _ _ _ _ _ _ Po).
        * rewrite T1, K1. apply bred_none.
        * congruence.
        * rewrite T4, K3. reflexivity.
  Qed.
End Release.
