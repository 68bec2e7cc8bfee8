(** The release round of distributed HGS: all turns, under every schedule. *)
From Verif Require Import Spec Base VarModel VarProofs HgsModel HgsSpec HgsProofs DhgsModel DhgsSpec DhgsNet DhgsGather DhgsOps DhgsRelease.
From Coq Require Import QArith Permutation.
Local Open Scope nat_scope.

Section Phase.
  Context {drv draw : Type}.
  Variable dnew : nat -> draw -> list vec -> drv.
  Variable dstep : draw -> drv -> drv.
  Variable dcost : drv -> Z.
  Variable dfinal : draw -> drv -> drv * list vec.
  Variable ddelegates : drv -> list vec.
  Variable hv_of : list vec -> Q.
  Variable EPSILON : Q.
  Variable C : config.
  Variable W : nat -> nat -> ndraws draw.
  Variable Wnew : nat -> draw.
  Notation system := (system drv).
  Notation node := (node drv).
  Notation node_receive := (node_receive drv draw dnew dstep dcost dfinal ddelegates hv_of EPSILON C W Wnew).
  Notation sup_receive := (sup_receive C).
  Notation until := (until dnew dstep dcost dfinal ddelegates hv_of EPSILON C W Wnew).
  Notation shape := (shape dnew Wnew).
  Notation calm := (calm dnew Wnew).
  Notation inv := (inv C).
  Notation births := (@births draw C).
  Notation grown := (grown dnew Wnew).
  Notation turn := (turn dnew C Wnew).
  Notation turns := (turns dnew C Wnew).
  Notation fresh_node := (fresh_node drv draw dnew Wnew).
  Notation sup c := (c_sup drv c). Notation actor c i := (c_nodes drv c i). Notation mail c a b := (c_mail drv c a b).
  Notation eff_reply := (effect_reply dnew dstep dcost dfinal ddelegates hv_of EPSILON C W Wnew).
  Notation turn_until := (turn_until dnew dstep dcost dfinal ddelegates hv_of EPSILON C W Wnew).
  Notation ask_until := (ask_until dnew dstep dcost dfinal ddelegates hv_of EPSILON C W Wnew).
  Notation answer_until := (answer_until dnew dstep dcost dfinal ddelegates hv_of EPSILON C W Wnew).
  Implicit Types (c : system) (ns : list node) (s : supervisor) (n : node).
  Hypothesis Htop : max_level C <= 2.

  (** ---- what a turn does to the list of nodes ---- *)
  Lemma combine_seq {A} (l : list A) a j : nth_error (combine (seq a (length l)) l) j = match nth_error l j with Some x => Some (a + j, x) | None => None end.
  Proof.
    clear Htop. revert a j. induction l as [|x l IH]; intros a [|j]; cbn; auto.
    - now rewrite Nat.add_0_r.
    - rewrite IH. destruct (nth_error l j); [|auto]. do 2 f_equal. lia.
  Qed.
  Lemma grown_length i n ns lv ps : length (grown i n ns lv ps) = length ns + length ps.
  Proof. clear Htop. unfold DhgsSpec.grown. now rewrite app_length, set_nth_length, map_length, combine_length, seq_length, Nat.min_id. Qed.
  Lemma grown_self i n ns lv ps : nth_error ns i = Some n -> nth_error (grown i n ns lv ps) i = Some (with_sprouts n (sprouts n ++ seq (length ns) (length ps))).
  Proof.
    clear Htop. intros H. unfold DhgsSpec.grown. assert (i < length ns) by (apply nth_error_Some; congruence).
    rewrite nth_error_app1 by (rewrite set_nth_length; auto). eapply set_nth_at. exact H.
  Qed.
  Lemma grown_old i n ns lv ps j : j < length ns -> j <> i -> nth_error (grown i n ns lv ps) j = nth_error ns j.
  Proof. clear Htop. intros H Ne. unfold DhgsSpec.grown. rewrite nth_error_app1 by (rewrite set_nth_length; auto). now apply set_nth_off. Qed.
  Lemma grown_new i n ns lv ps j : length ns <= j ->
    nth_error (grown i n ns lv ps) j = match nth_error ps (j - length ns) with Some p => Some (fresh_node j lv p) | None => None end.
  Proof.
    clear Htop. intros H. unfold DhgsSpec.grown. rewrite nth_error_app2 by (rewrite set_nth_length; auto). rewrite set_nth_length, nth_error_map, combine_seq.
    destruct (nth_error ps (j - length ns)); [|reflexivity]. cbn. now replace (length ns + (j - length ns)) with j by lia.
  Qed.
  Lemma grown_inv i n ns lv ps j x : nth_error ns i = Some n -> nth_error (grown i n ns lv ps) j = Some x ->
    (j < length ns /\ exists y, nth_error ns j = Some y /\ x = with_sprouts y (if j =? i then sprouts y ++ seq (length ns) (length ps) else sprouts y)) \/
    (length ns <= j /\ exists p, nth_error ps (j - length ns) = Some p /\ x = fresh_node j lv p).
  Proof.
    clear Htop. intros Hn H. destruct (Nat.lt_ge_cases j (length ns)) as [L|L].
    - left. split; [auto|]. destruct (Nat.eqb_spec j i) as [->|Ne].
      + rewrite grown_self in H by auto. injection H as <-. eauto.
      + rewrite grown_old in H by auto. exists x. split; [auto|]. now rewrite with_sprouts_same.
    - right. split; [auto|]. rewrite grown_new in H by auto. destruct (nth_error ps (j - length ns)) as [p|]; [|discriminate]. injection H as <-. eauto.
  Qed.
  Lemma grown_at i n ns lv ps j y : nth_error ns i = Some n -> nth_error ns j = Some y ->
    nth_error (grown i n ns lv ps) j = Some (with_sprouts y (if j =? i then sprouts y ++ seq (length ns) (length ps) else sprouts y)).
  Proof.
    clear Htop. intros Hn Hj. destruct (Nat.eqb_spec j i) as [->|Ne].
    - rewrite Hn in Hj. injection Hj as <-. now apply grown_self.
    - rewrite with_sprouts_same, grown_old; auto. apply nth_error_Some. congruence.
  Qed.

  Lemma bred_at s lv N m s' l ids : bred s lv N m s' -> nth_error (s_levels s') l = Some ids ->
    exists ids0, nth_error (s_levels s) l = Some ids0 /\ ids = if l =? lv then ids0 ++ seq N m else ids0.
  Proof.
    clear Htop. intros B E. assert (L : l < length (s_levels s)) by (rewrite <- (br_len _ _ _ _ _ B); apply nth_error_Some; congruence).
    destruct (nth_lt _ _ L) as (ids0 & E0). exists ids0. split; [auto|]. rewrite (br_levels _ _ _ _ _ B _ _ E0) in E. congruence.
  Qed.

  Lemma inv_grown s s' ns i n ps : inv s ns -> nth_error ns i = Some n -> (ps <> [] -> level n < max_level C) ->
    bred s (S (level n)) (length ns) (length ps) s' -> inv s' (grown i n ns (S (level n)) ps).
  Proof.
    clear Htop. intros [I1 I2 I3 I4 I5 I6 I9 I7 I8] Hn Hps B.
    split.
    - rewrite (br_nodes _ _ _ _ _ B), I1, grown_length, seq_app. reflexivity.
    - now rewrite (br_len _ _ _ _ _ B).
    - intros lv ids E. destruct (bred_at _ _ _ _ _ _ _ B E) as (ids0 & E0 & ->). destruct (I3 _ _ E0) as (ND & M). split.
      + destruct (Nat.eqb_spec lv (S (level n))); [|auto]. apply (NoDup_app_intro); [exact ND|apply seq_NoDup|].
        intros x Hx Hs. apply M in Hx. destruct Hx as (m & Hm & _). apply in_seq in Hs. assert (x < length ns) by (apply nth_error_Some; congruence). lia.
      + intros j. split.
        * intros Hj. assert (Hj' : In j ids0 \/ (lv = S (level n) /\ length ns <= j < length ns + length ps)).
          { destruct (Nat.eqb_spec lv (S (level n))); [|auto]. apply in_app_iff in Hj. destruct Hj as [Hj|Hj]; [auto|]. apply in_seq in Hj. auto. }
          destruct Hj' as [Hj'|(El & Lj)].
          -- apply M in Hj'. destruct Hj' as (m & Hm & Lm). eexists. split; [eapply grown_at; eauto|exact Lm].
          -- destruct (nth_lt ps (j - length ns)) as (p & Hp); [lia|]. exists (fresh_node j (S (level n)) p). rewrite grown_new, Hp by lia. split; [reflexivity|]. now rewrite El.
        * intros (x & Hx & Lx). destruct (grown_inv _ _ _ _ _ _ _ Hn Hx) as [(Lj & y & Hy & ->)|(Lj & p & Hp & ->)].
          -- cbn in Lx. assert (In j ids0) by (apply M; eauto). destruct (lv =? S (level n)); [apply in_or_app; auto|auto].
          -- cbn in Lx. subst lv. rewrite Nat.eqb_refl. apply in_or_app. right. apply in_seq. assert (j - length ns < length ps) by (apply nth_error_Some; congruence). lia.
    - intros j x Hx. destruct (grown_inv _ _ _ _ _ _ _ Hn Hx) as [(Lj & y & Hy & ->)|(Lj & p & Hp & ->)]; cbn; [eauto|].
      assert (ps <> []) by (intros ->; destruct (j - length ns); discriminate). specialize (Hps H). lia.
    - destruct I5 as (m & Hm & Lm). eexists. split; [eapply grown_at; eauto|exact Lm].
    - intros j x Hx. destruct (grown_inv _ _ _ _ _ _ _ Hn Hx) as [(Lj & y & Hy & ->)|(Lj & p & Hp & ->)]; cbn; [|split; [constructor|intros ? []]].
      destruct (I6 _ _ Hy) as (ND & M).
      assert (Bd : forall z, In z (sprouts y) -> z < length ns) by (intros z Hz; destruct (M z Hz) as (_ & m & Hm & _); apply nth_error_Some; congruence).
      split.
      + destruct (j =? i); [|auto]. apply NoDup_app_intro; [exact ND|apply seq_NoDup|]. intros z Hz Hs. apply in_seq in Hs. specialize (Bd z Hz). lia.
      + intros z Hz. assert (Hz' : In z (sprouts y) \/ (j = i /\ length ns <= z < length ns + length ps)).
        { destruct (Nat.eqb_spec j i); [|auto]. apply in_app_iff in Hz. destruct Hz as [Hz|Hz]; [auto|]. apply in_seq in Hz. auto. }
        destruct Hz' as [Hz'|(Ej & Lz)].
        * destruct (M z Hz') as (Lt & m & Hm & Lm). split; [auto|]. eexists. split; [eapply grown_at; eauto|exact Lm].
        * subst j. rewrite Hn in Hy. injection Hy as <-. split; [lia|]. destruct (nth_lt ps (z - length ns)) as (p & Hp); [lia|].
          exists (fresh_node z (S (level n)) p). rewrite grown_new, Hp by lia. split; reflexivity.
    - intros j x l Hx Lx. assert (Y : exists j2 y2, nth_error ns j2 = Some y2 /\ level y2 = l).
      { destruct (grown_inv _ _ _ _ _ _ _ Hn Hx) as [(Lj & y & Hy & ->)|(Lj & p & Hp & ->)]; cbn in Lx; [eauto|]. injection Lx as <-. eauto. }
      destruct Y as (j2 & y2 & H2 & L2). exists j2. eexists. split; [eapply grown_at; eauto|exact L2].
    - intros j x Hx. destruct (grown_inv _ _ _ _ _ _ _ Hn Hx) as [(Lj & y & Hy & ->)|(Lj & p & Hp & ->)]; cbn; [eauto|reflexivity].
    - now rewrite (br_ratios _ _ _ _ _ B).
  Qed.

  Lemma explored_grown i n ns lv ps seeds l p : nth_error ns i = Some n -> p <> [] ->
    (In p (explored_at (grown i n ns lv ps) (seeds ++ map (fun p => (lv, p)) ps) l) <-> In p (explored_at ns seeds l) \/ (l = lv /\ In p ps)).
  Proof.
    clear Htop. intros Hn Np. unfold explored_at. rewrite filter_app, map_app, !in_app_iff.
    assert (E1 : In p (map (fun m => population m) (filter (fun m => level m =? l) (grown i n ns lv ps))) <-> In p (map (fun m => population m) (filter (fun m => level m =? l) ns))).
    { rewrite !in_map_iff. split.
      - intros (x & Ex & Hx). apply filter_In in Hx. destruct Hx as (Hx & Lx). apply In_nth_error in Hx. destruct Hx as (j & Hj).
        destruct (grown_inv _ _ _ _ _ _ _ Hn Hj) as [(Lj & y & Hy & ->)|(Lj & q & Hq & ->)]; cbn in *; [|congruence].
        exists y. split; [auto|]. apply filter_In. split; [eapply nth_error_In; eauto|auto].
      - intros (x & Ex & Hx). apply filter_In in Hx. destruct Hx as (Hx & Lx). apply In_nth_error in Hx. destruct Hx as (j & Hj).
        pose proof (grown_at i n ns lv ps j x Hn Hj) as G. eexists. split; [|apply filter_In; split; [eapply nth_error_In; exact G|exact Lx]]. exact Ex. }
    assert (E2 : In p (map snd (filter (fun q => fst q =? l) (map (fun p => (lv, p)) ps))) <-> l = lv /\ In p ps).
    { rewrite in_map_iff. split.
      - intros ((a & b) & Eb & Hb). apply filter_In in Hb. destruct Hb as (Hb & Lb). apply in_map_iff in Hb. destruct Hb as (q & [= <- <-] & Hq). cbn in *. apply Nat.eqb_eq in Lb. subst. auto.
      - intros (-> & Hp). exists (lv, p). split; [auto|]. apply filter_In. split; [apply in_map_iff; eauto|cbn; apply Nat.eqb_refl]. }
    rewrite E1, E2. tauto.
  Qed.

  (** ---- the round ---- *)
  Lemma firstn_snoc {A} (l : list A) m x : nth_error l m = Some x -> firstn (S m) l = firstn m l ++ [x].
  Proof. clear Htop. revert m. induction l as [|y l IH]; intros [|m] H; cbn in *; try discriminate; [congruence|]. f_equal. now apply IH. Qed.
  Lemma in_skipn {A} (l : list A) m x : In x (skipn m l) -> In x l.
  Proof. clear Htop. revert m. induction l as [|y l IH]; intros [|m] H; cbn in *; auto. right. eauto. Qed.
  Lemma skipn_S {A} (l : list A) m x r : skipn m l = x :: r -> skipn (S m) l = r.
  Proof. clear Htop. revert m. induction l as [|y l IH]; intros [|m] H; try discriminate H; [now injection H|]. cbn [skipn] in H. apply (IH m H). Qed.
  Section Round.
    Variables (ns0 : list node) (s0 : supervisor) (a0 : list message) (v0 : list nat) (k k0 : nat).
    Hypothesis Iv0 : inv s0 ns0.
    Let order := concat (rev (s_levels s0)).
    Let N0 := length ns0.

    Record midway c ns seeds (lvl index : nat) (ids : list nat) (current nxt : list status) (pops : list (list vec)) (don : list nat) (i : nat) (rest : list nat) : Prop := {
      mw_shape : shape c ns (fun j => j < N0) (upd no_mail i [mk (Sup, k0) (NReleaseSprouts nxt)]) no_mail [] [] no_peer;
      mw_inv : inv (sup c) ns;
      mw_task : nth_error (s_tasks (sup c)) k0 = Some (TRelease Ext (Ext, k) lvl index current nxt);
      mw_levels : forall l, l <= lvl -> nth_error (s_levels (sup c)) l = nth_error (s_levels s0) l;
      mw_ids : nth_error (s_levels s0) lvl = Some ids;
      mw_at : skipn index ids = i :: rest;
      mw_order : order = don ++ i :: rest ++ concat (rev (firstn lvl (s_levels s0)));
      mw_current : Forall2 st_of current (map (fun n => population n) (picked ns0 (firstn index ids)));
      mw_next : Forall2 st_of nxt pops;
      mw_explored : forall p, p <> [] -> (In p pops <-> In p (explored_at ns seeds (S lvl)));
      mw_turns : turns don ns0 [] ns seeds;
      mw_old : forall j n0, nth_error ns0 j = Some n0 -> exists l, nth_error ns j = Some (with_sprouts n0 l) /\ (~ In j don -> l = sprouts n0);
      mw_seeds : forall q, In q seeds -> lvl < fst q;
      mw_young : forall j n, nth_error ns j = Some n -> N0 <= j -> lvl < level n /\ alive n = true;
      mw_len : length ns = N0 + length seeds;
      mw_alive : existsb st_alive (s_states (sup c)) = existsb (alive_at ns0) don || negb (length seeds =? 0);
      mw_log : seeds = [] -> s_states (sup c) = flat_map (fun j => match nth_error ns0 j with Some n => [node_status drv (Nd j) n] | None => [] end) don;
      mw_answers : answers c = a0;
      mw_visited : visited c = v0 ++ don;
      mw_cost : s_cost (sup c) = s_cost s0;
      mw_ratios : s_ratios (sup c) = s_ratios s0
    }.

    Definition released (c : system) : Prop := exists ns' seeds', calm c ns' (fun j => j < N0) /\ turns order ns0 [] ns' seeds' /\ inv (sup c) ns' /\
      recorded (sup c) ns' /\ answers c = a0 ++ [mk (Ext, k) HReleaseSproutsEnd] /\ visited c = v0 ++ order /\ s_cost (sup c) = s_cost s0 /\ s_ratios (sup c) = s_ratios s0.

    Lemma order_perm : Permutation order (seq 0 N0).
    Proof.
      destruct (levels_perm C Htop _ _ Iv0) as (_ & P). eapply Permutation_trans; [|exact P]. unfold order. clear.
      induction (s_levels s0) as [|l L IH]; cbn; [auto|]. rewrite concat_app. cbn. rewrite app_nil_r. eapply Permutation_trans; [apply Permutation_app_comm|]. now apply Permutation_app_head.
    Qed.
    Lemma order_nodup : NoDup order.
    Proof. eapply Permutation_NoDup; [symmetry; apply order_perm|apply seq_NoDup]. Qed.

    Lemma level_ids lvl ids j : nth_error (s_levels s0) lvl = Some ids -> In j ids -> exists n, nth_error ns0 j = Some n /\ level n = lvl /\ j < N0.
    Proof.
      intros E H. apply (iv_listed _ _ _ Iv0 _ _ E) in H. destruct H as (n & Hn & L). exists n. split; [auto|split; [auto|]]. apply nth_error_Some. congruence.
    Qed.

    (* the new record of states says whether some node is alive *)
    Lemma log_final s ns (seeds : list (nat * list vec)) : (forall j n0, nth_error ns0 j = Some n0 -> exists l, nth_error ns j = Some (with_sprouts n0 l)) ->
      (forall j n, nth_error ns j = Some n -> N0 <= j -> alive n = true) -> length ns = N0 + length seeds ->
      existsb st_alive (s_states s) = existsb (alive_at ns0) order || negb (length seeds =? 0) ->
      (seeds = [] -> s_states s = flat_map (fun j => match nth_error ns0 j with Some n => [node_status drv (Nd j) n] | None => [] end) order) ->
      recorded s ns.
    Proof.
      intros Old Yng Len Al Lg.
      assert (E : existsb (@alive drv) ns = existsb (alive_at ns0) order || negb (length seeds =? 0)).
      { apply eq_true_iff_eq. rewrite orb_true_iff, !existsb_exists, negb_true_iff, Nat.eqb_neq. split.
        - intros (n & Hn & An). apply In_nth_error in Hn. destruct Hn as (j & Hj). destruct (Nat.lt_ge_cases j N0) as [L|L].
          + left. exists j. split; [eapply Permutation_in; [symmetry; apply order_perm|]; apply in_seq; lia|]. unfold alive_at. destruct (nth_lt ns0 j L) as (n0 & H0). rewrite H0.
            destruct (Old j n0 H0) as (l & Hl). rewrite Hl in Hj. injection Hj as <-. exact An.
          + right. assert (j < length ns) by (apply nth_error_Some; congruence). lia.
        - intros [(j & _ & Aj)|Ne].
          + unfold alive_at in Aj. destruct (nth_error ns0 j) as [n0|] eqn:H0; [|discriminate]. destruct (Old j n0 H0) as (l & Hl). exists (with_sprouts n0 l). split; [eapply nth_error_In; eauto|exact Aj].
          + destruct (nth_lt ns N0) as (n & Hn); [lia|]. exists n. split; [eapply nth_error_In; eauto|]. eapply Yng; eauto. }
      split; [congruence|]. intros Dead. rewrite E in Dead. apply orb_false_iff in Dead. destruct Dead as (D1 & D2). apply negb_false_iff, Nat.eqb_eq in D2.
      assert (seeds = []) by (destruct seeds; [auto|discriminate]). specialize (Lg H). exists order. split; [|rewrite Len, D2, Nat.add_0_r; apply order_perm].
      rewrite Lg. assert (In' : forall j, In j order -> exists n, nth_error ns0 j = Some n /\ ripe n = true).
      { intros j Hj. assert (L : j < N0) by (apply (Permutation_in _ order_perm), in_seq in Hj; lia). destruct (nth_lt ns0 j L) as (n & Hn). exists n. split; [auto|].
        rewrite (iv_flags _ _ _ Iv0 _ _ Hn). assert (A : alive_at ns0 j = false).
        { destruct (alive_at ns0 j) eqn:X; [|auto]. rewrite <- D1. symmetry. apply existsb_exists. eauto. }
        unfold alive_at in A. rewrite Hn in A. now rewrite A. }
      clear - In'. induction order as [|j o IH]; [reflexivity|]. cbn [flat_map map]. destruct (In' j (or_introl eq_refl)) as (n & Hn & Rn). rewrite Hn.
      cbn [app filter node_status status_of st_ripe]. rewrite Rn. cbn [map st_addr]. f_equal. apply IH. intros x Hx. apply In'. now right.
    Qed.

    Lemma status_is i n : st_of (node_status drv (Nd i) n) (population n).
    Proof. clear. unfold st_of, node_status, status_of. cbn. split; [destruct (population n); reflexivity|reflexivity]. Qed.

    Lemma picked_snoc ids index i rest n0 : skipn index ids = i :: rest -> nth_error ns0 i = Some n0 -> picked ns0 (firstn (S index) ids) = picked ns0 (firstn index ids) ++ [n0].
    Proof.
      clear. intros E Hn. assert (Ei : nth_error ids index = Some i).
      { rewrite <- (Nat.add_0_r index), <- nth_skipn, E. reflexivity. }
      rewrite (firstn_snoc ids index i Ei). unfold picked. rewrite flat_map_app. cbn. now rewrite Hn.
    Qed.

    Lemma round : forall m c ns seeds lvl index ids current nxt pops don i rest,
      length (i :: rest ++ concat (rev (firstn lvl (s_levels s0)))) <= m ->
      midway c ns seeds lvl index ids current nxt pops don i rest -> until (fun c' => answers c' = a0) released c.
    Proof.
      induction m as [|m IH]; intros c ns seeds lvl index ids current nxt pops don i rest Lm M; [cbn in Lm; lia|].
      destruct M as [Sh Iv Tk Lv Ids At Od Cu Nx Ex Tu Old Sd Yg Len Al Lg An Vi Co Ra].
      assert (Iin : In i ids) by (apply (in_skipn _ index); rewrite At; now left).
      destruct (level_ids _ _ _ Ids Iin) as (n0 & Hn0 & Ln0 & Li).
      assert (Ndon : ~ In i don).
      { pose proof order_nodup as ND. rewrite Od in ND. apply NoDup_remove_2 in ND. intros H. apply ND. apply in_or_app. now left. }
      destruct (Old i n0 Hn0) as (l0 & Hn & El). rewrite (El Ndon), with_sprouts_same in Hn. clear l0 El.
      destruct (iv_sprouts _ _ _ Iv0 _ _ Hn0) as (NDs & Sps).
      eapply until_trans.
      { eapply until_weaken; [eapply turn_until with (i := i) (k0 := k0) (R := fun j => j < N0) (n := n0) (nxt := nxt) (pops := pops) (ns := ns)| |].
        - exact Htop.
        - exact Li.
        - intros j Hj. rewrite Len. lia.
        - exact Sh.
        - exact Hn.
        - intros j Hj. destruct (Sps j Hj) as (Lt & x & Hx & _). split; [apply nth_error_Some; congruence|lia].
        - exact NDs.
        - exact Nx.
        - apply (iv_nodes _ _ _ Iv).
        - apply (iv_levels _ _ _ Iv).
        - intros c' E. cbn in E. congruence.
        - intros c' P. exact P. }
      intros c1 (ps & created & Ru & Fc & Ac & Sh1 & B & A1 & V1).
      set (ns1 := grown i n0 ns (S (level n0)) ps) in *. set (seeds1 := seeds ++ map (fun p => (S (level n0), p)) ps).
      assert (Pl : ps <> [] -> level n0 < max_level C).
      { intros Np. destruct (ripe n0); [|congruence]. unfold rule in Ru. destruct (Nat.ltb_spec (level n0) (max_level C)); [auto|]. cbn in Ru. congruence. }
      pose proof (inv_grown _ _ _ _ _ _ Iv Hn Pl B) as Iv1. fold ns1 in Iv1.
      assert (Tn : turn i ns seeds ns1 seeds1).
      { exists n0, ps. split; [exact Hn|split; [|split; reflexivity]]. destruct (ripe n0); cbn [andb]; [|exact Ru]. unfold rule in Ru. destruct (_ && _); [|exact Ru].
        eapply (births_same dnew dstep dcost dfinal ddelegates hv_of C W Wnew); [exact Ru|]. rewrite Ln0. exact Ex. }
      assert (Tu1 : turns (don ++ [i]) ns0 [] ns1 seeds1) by (eapply turns_more; eauto).
      assert (Len1 : length ns1 = N0 + length seeds1) by (unfold ns1, seeds1; rewrite grown_length, app_length, map_length, Len; lia).
      assert (Old1 : forall j m0, nth_error ns0 j = Some m0 -> exists l, nth_error ns1 j = Some (with_sprouts m0 l) /\ (~ In j (don ++ [i]) -> l = sprouts m0)).
      { intros j m0 Hj. destruct (Old j m0 Hj) as (l & Hl & El). unfold ns1. eexists. split; [rewrite (grown_at _ _ _ _ _ _ _ Hn Hl); cbn; reflexivity|].
        intros Nj. rewrite in_app_iff in Nj. destruct (Nat.eqb_spec j i) as [E|E]; [exfalso; apply Nj; right; left; auto|]. apply El. tauto. }
      assert (Lvb : lvl < 3) by (rewrite <- (iv_levels _ _ _ Iv0); apply nth_error_Some; congruence).
      assert (Sd1 : forall q, In q seeds1 -> lvl < fst q).
      { intros q Hq. apply in_app_iff in Hq. destruct Hq as [Hq|Hq]; [auto|]. apply in_map_iff in Hq. destruct Hq as (p & <- & _). cbn. lia. }
      assert (Yg1 : forall j x, nth_error ns1 j = Some x -> N0 <= j -> lvl < level x /\ alive x = true).
      { intros j x Hx Lj. destruct (grown_inv _ _ _ _ _ _ _ Hn Hx) as [(Lj' & y & Hy & ->)|(Lj' & p & Hp & ->)]; cbn; [exact (Yg j y Hy Lj)|]. split; [lia|reflexivity]. }
      assert (Lv1 : forall l, l <= lvl -> nth_error (s_levels (sup c1)) l = nth_error (s_levels s0) l).
      { intros l Ll. rewrite <- (Lv l Ll). destruct (nth_lt (s_levels (sup c)) l) as (is & Eis); [rewrite (iv_levels _ _ _ Iv); lia|].
        rewrite (br_levels _ _ _ _ _ B _ _ Eis), Eis. destruct (Nat.eqb_spec l (S (level n0))); [lia|reflexivity]. }
      set (mine := node_status drv (Nd i) n0) in *.
      set (s1 := with_states (sup c1) (s_states (sup c1) ++ mine :: created)).
      assert (Al1 : existsb st_alive (s_states s1) = existsb (alive_at ns0) (don ++ [i]) || negb (length seeds1 =? 0)).
      { unfold s1. cbn [s_states with_states]. rewrite existsb_app, (br_states _ _ _ _ _ B), Al, existsb_app. cbn [existsb st_alive mine node_status status_of].
        assert (E1 : existsb st_alive created = negb (length ps =? 0)).
        { inversion Fc as [|st p cr ps' S1 S2]; subst; [reflexivity|]. inversion Ac; subst. cbn. now rewrite H1. }
        assert (E2 : alive_at ns0 i = alive n0) by (unfold alive_at; now rewrite Hn0).
        rewrite E1, E2, orb_false_r. unfold seeds1. rewrite app_length, map_length. unfold mine. cbn.
        destruct (length seeds), (length ps); cbn; destruct (existsb (alive_at ns0) don), (alive n0); reflexivity. }
      assert (Lg1 : seeds1 = [] -> s_states s1 = flat_map (fun j => match nth_error ns0 j with Some n => [node_status drv (Nd j) n] | None => [] end) (don ++ [i])).
      { intros E. apply app_eq_nil in E. destruct E as (E1 & E2). apply map_eq_nil in E2. subst ps. inversion Fc; subst created.
        unfold s1. cbn [s_states with_states]. rewrite (br_states _ _ _ _ _ B), (Lg E1), flat_map_app. cbn [flat_map]. rewrite Hn0. reflexivity. }
      assert (Sk : skipn (S index) ids = rest).
      { eapply skipn_S. exact At. }
      assert (Cu1 : Forall2 st_of (current ++ [mine]) (map (fun n => population n) (picked ns0 (firstn (S index) ids)))).
      { rewrite (picked_snoc _ _ _ _ _ At Hn0), map_app. apply Forall2_app; [exact Cu|]. constructor; [apply status_is|constructor]. }
      assert (Nx1 : Forall2 st_of (nxt ++ created) (pops ++ ps)) by (apply Forall2_app; auto).
      assert (Ex1 : forall p, p <> [] -> (In p (pops ++ ps) <-> In p (explored_at ns1 seeds1 (S lvl)))).
      { intros p Np. unfold ns1, seeds1. rewrite explored_grown by auto. rewrite in_app_iff, (Ex p Np), Ln0. tauto. }
      assert (Lids : length ids = index + S (length rest)).
      { pose proof (skipn_length index ids) as X. rewrite At in X. cbn in X. lia. }
      assert (Gids : get (s_levels (sup c1)) lvl = Ok ids) by (apply get_Some; rewrite Lv1; auto).
      assert (Tk1 : nth_error (s_tasks (sup c1)) k0 = Some (TRelease Ext (Ext, k) lvl index current nxt)) by (rewrite (br_tasks _ _ _ _ _ B); exact Tk).
      assert (V1' : visited c1 = v0 ++ don ++ [i]) by (rewrite V1, Vi, app_assoc; reflexivity).
      (* what the supervisor does with the reply *)
      assert (Step : forall t out, sup_receive (sup c1) (Nd i) (mk (Sup, k0) (NReleaseSproutsEnd mine created)) = Ok (set_task s1 k0 t, out) ->
        to Sup out = [] -> (forall j, length ns1 <= j -> to (Nd j) out = []) ->
        (forall c2, shape c2 ns1 (fun j => j < N0) (fun j => to (Nd j) out) no_mail [] (to Ext out) no_peer -> sup c2 = set_task s1 k0 t ->
           answers c2 = a0 -> visited c2 = v0 ++ don ++ [i] -> until (fun c' => answers c' = a0) released c2) ->
        until (fun c' => answers c' = a0) released c1).
      { intros t out Er Os Oj H. eapply drift; [exact Sh1| | |].
        - intros c2 (_ & K & _). congruence.
        - exists i, 0. right. left. split; [rewrite Len1; lia|]. rewrite upd_same. discriminate.
        - intros c2 o Sh2 (K1 & K2 & K3 & K4) Rl. destruct Rl as [j nj x q Hnj V Hr|j x q Hj Hr Hm'|x q Hx|x q Hx|a b x q Hx]; try discriminate.
          destruct (Nat.eq_dec j i) as [Ej|Nj]; [subst j|rewrite upd_other in Hr by auto; discriminate]. rewrite upd_same in Hr. injection Hr as <- Hq.
          rewrite <- K1 in Er. edestruct eff_reply as (c3 & Ec & Sh3 & T1 & T2 & T3 & T4); [exact Sh2|exact Hj| |exact Hm'|exact Er|exact Os|exact Oj|].
          { rewrite upd_same. now rewrite <- Hq. }
          exists c3. split; [exact Ec|]. apply H; try congruence.
          eapply shape_ext; [exact Sh3| | | |]; auto.
          intros j. rewrite <- Hq. destruct (Nat.eq_dec j i) as [->|Nj]; [now rewrite upd_same|now rewrite !upd_other by auto]. }
      assert (Er0 : sup_receive (sup c1) (Nd i) (mk (Sup, k0) (NReleaseSproutsEnd mine created)) =
        if length ids <=? S index then
          match lvl with
          | 0 => Ok (set_task s1 k0 (TRelease Ext (Ext, k) 0 0 [] (current ++ [mine])), [(Ext, mk (Ext, k) HReleaseSproutsEnd)])
          | S lvl' => do out <- release_request s1 (Sup, k0) lvl' 0 (current ++ [mine]); Ok (set_task s1 k0 (TRelease Ext (Ext, k) lvl' 0 [] (current ++ [mine])), out)
          end
        else do out <- release_request s1 (Sup, k0) lvl (S index) (nxt ++ created); Ok (set_task s1 k0 (TRelease Ext (Ext, k) lvl (S index) (current ++ [mine]) (nxt ++ created)), out)).
      { unfold DhgsModel.sup_receive. cbn [m_body m_id continue_task]. rewrite (get_Some _ _ _ Tk1). cbn [bind]. rewrite Gids. cbn [bind]. reflexivity. }
      assert (Ivf : forall t, inv (set_task s1 k0 t) ns1).
      { intros t. destruct Iv1. split; assumption. }
      assert (Tkf : forall t, nth_error (s_tasks (set_task s1 k0 t)) k0 = Some t) by (intros t; cbn; eapply set_nth_at; exact Tk1).
      destruct rest as [|i' rest'].
      - replace (length ids <=? S index) with true in Er0 by (symmetry; apply Nat.leb_le; cbn in Lids; lia).
        destruct lvl as [|lvl'].
        + (* the root level is done *)
          eapply Step; [exact Er0|reflexivity|reflexivity|]. intros c2 Sh2 E2 A2 V2. cbn in Sh2.
          eapply answer_until; [exact Sh2|exact A2|]. intros c3 Cm E3 A3 V3 _. exists ns1, seeds1.
          assert (Od1 : order = don ++ [i]) by (rewrite Od; cbn; reflexivity).
          split; [exact Cm|]. rewrite E3, E2, V3, V2, A3, Od1. split; [exact Tu1|]. split; [apply Ivf|]. split; [|split; [reflexivity|split; [reflexivity|split]]].
          * apply (log_final _ _ seeds1); auto.
            -- intros j m0 Hj. destruct (Old1 j m0 Hj) as (l & Hl & _). eauto.
            -- intros j x Hx Lj. now apply (Yg1 j x).
            -- rewrite Od1. exact Al1.
            -- rewrite Od1. exact Lg1.
          * cbn. rewrite (br_cost _ _ _ _ _ B). exact Co.
          * cbn. rewrite (br_ratios _ _ _ _ _ B). exact Ra.
        + (* on to the level above *)
          destruct (nth_lt (s_levels s0) lvl') as (ids' & Ids'); [rewrite (iv_levels _ _ _ Iv0); lia|].
          assert (X : exists i' rest', ids' = i' :: rest').
          { destruct (iv_closed _ _ _ Iv0 i n0 lvl' Hn0 Ln0) as (j & x & Hx & Lx). assert (In j ids') by (apply (iv_listed _ _ _ Iv0 _ _ Ids'); eauto). destruct ids' as [|a b]; [destruct H|eauto]. }
          destruct X as (i' & rest' & Eids').
          assert (Fn : concat (rev (firstn (S lvl') (s_levels s0))) = ids' ++ concat (rev (firstn lvl' (s_levels s0)))).
          { rewrite (firstn_snoc _ _ _ Ids'), rev_app_distr. reflexivity. }
          assert (Rq : release_request s1 (Sup, k0) lvl' 0 (current ++ [mine]) = Ok [(Nd i', mk (Sup, k0) (NReleaseSprouts (current ++ [mine])))]).
          { unfold release_request. cbn [s_levels s1 with_states]. rewrite (get_Some _ lvl' ids') by (rewrite Lv1; auto). cbn [bind]. rewrite Eids'. reflexivity. }
          rewrite Rq in Er0. cbn [bind] in Er0.
          assert (Li' : i' < N0) by (destruct (level_ids _ _ i' Ids') as (x & _ & _ & L); [rewrite Eids'; now left|exact L]).
          eapply Step; [exact Er0|reflexivity| |].
          { intros j Lj. cbn. destruct (Nat.eqb_spec i' j); [lia|reflexivity]. }
          intros c2 Sh2 E2 A2 V2.
          apply (IH c2 ns1 seeds1 lvl' 0 ids' [] (current ++ [mine]) (map (fun n => population n) (picked ns0 ids)) (don ++ [i]) i' rest').
          { cbn [length app] in Lm. rewrite Fn, Eids' in Lm. cbn [length app] in Lm |- *. lia. }
          assert (Fi : firstn (S index) ids = ids) by (apply firstn_all2; cbn in Lids; lia).
          split; rewrite ?E2; auto.
          * eapply shape_ext; [exact Sh2| | | |]; auto. intros j. cbn. destruct (Nat.eqb_spec i' j) as [->|Nj]; [now rewrite upd_same|now rewrite upd_other by auto].
          * rewrite Od, Fn, Eids'. rewrite <- app_assoc. reflexivity.
          * cbn. constructor.
          * rewrite Fi in Cu1. exact Cu1.
          * intros p Np. rewrite in_map_iff. unfold explored_at. rewrite in_app_iff, !in_map_iff. split.
            -- intros (x & Ex' & Hx). left. unfold picked in Hx. apply in_flat_map in Hx. destruct Hx as (j & Hj & Hx). destruct (level_ids _ _ _ Ids Hj) as (y & Hy & Ly & _). rewrite Hy in Hx. destruct Hx as [<-|[]].
               destruct (Old1 j y Hy) as (l & Hl & _). exists (with_sprouts y l). split; [exact Ex'|]. apply filter_In. split; [eapply nth_error_In; exact Hl|]. cbn. apply Nat.eqb_eq. exact Ly.
            -- intros [(x & Ex' & Hx)|(q & Eq & Hq)].
               ++ apply filter_In in Hx. destruct Hx as (Hx & Lx). apply Nat.eqb_eq in Lx. apply In_nth_error in Hx. destruct Hx as (j & Hj). destruct (Nat.lt_ge_cases j N0) as [Lj|Lj].
                  ** destruct (nth_lt ns0 j Lj) as (y & Hy). destruct (Old1 j y Hy) as (l & Hl & _). rewrite Hl in Hj. injection Hj as <-. exists y. split; [exact Ex'|]. unfold picked. apply in_flat_map. exists j. split; [|rewrite Hy; now left].
                     apply (iv_listed _ _ _ Iv0 _ _ Ids). exists y. split; [exact Hy|exact Lx].
                  ** destruct (Yg1 j x Hj Lj). lia.
               ++ apply filter_In in Hq. destruct Hq as (Hq & Lq). apply Nat.eqb_eq in Lq. specialize (Sd1 q Hq). lia.
          * intros q Hq. specialize (Sd1 q Hq). lia.
          * intros j x Hx Lj. destruct (Yg1 j x Hx Lj). split; [lia|auto].
          * cbn. rewrite (br_cost _ _ _ _ _ B). exact Co.
          * cbn. rewrite (br_ratios _ _ _ _ _ B). exact Ra.
      - (* the next node of the level *)
        replace (length ids <=? S index) with false in Er0 by (symmetry; apply Nat.leb_gt; cbn in Lids; lia).
        assert (Ei' : nth_error ids (S index) = Some i') by (rewrite <- (Nat.add_0_r (S index)), <- nth_skipn, Sk; reflexivity).
        assert (Rq : release_request s1 (Sup, k0) lvl (S index) (nxt ++ created) = Ok [(Nd i', mk (Sup, k0) (NReleaseSprouts (nxt ++ created)))]).
        { unfold release_request. cbn [s_levels s1 with_states]. rewrite Gids. cbn [bind]. rewrite (get_Some _ _ _ Ei'). reflexivity. }
        rewrite Rq in Er0. cbn [bind] in Er0.
        assert (Li' : i' < N0) by (destruct (level_ids _ _ i' Ids) as (x & _ & _ & L); [eapply nth_error_In; exact Ei'|exact L]).
        eapply Step; [exact Er0|reflexivity| |].
        { intros j Lj. cbn. destruct (Nat.eqb_spec i' j); [lia|reflexivity]. }
        intros c2 Sh2 E2 A2 V2.
        apply (IH c2 ns1 seeds1 lvl (S index) ids (current ++ [mine]) (nxt ++ created) (pops ++ ps) (don ++ [i]) i' rest').
        { cbn in Lm |- *. lia. }
        split; rewrite ?E2; auto.
        * eapply shape_ext; [exact Sh2| | | |]; auto. intros j. cbn. destruct (Nat.eqb_spec i' j) as [->|Nj]; [now rewrite upd_same|now rewrite upd_other by auto].
        * rewrite Od. rewrite <- app_assoc. reflexivity.
        * cbn. rewrite (br_cost _ _ _ _ _ B). exact Co.
        * cbn. rewrite (br_ratios _ _ _ _ _ B). exact Ra.
    Qed.
  End Round.

  Lemma find_leaf_spec s : 0 < length (s_levels s) -> (exists i r, nth_error (s_levels s) 0 = Some (i :: r)) -> forall m, S m <= length (s_levels s) ->
    exists lv i r, find_leaf s (S m) = Ok (Some lv) /\ lv <= m /\ nth_error (s_levels s) lv = Some (i :: r) /\ forall l ids, lv < l <= m -> nth_error (s_levels s) l = Some ids -> ids = [].
  Proof.
    clear Htop. intros _ (i & r & E0). induction m as [|m IH]; intros L.
    - exists 0, i, r. cbn [find_leaf]. rewrite (get_Some _ _ _ E0). cbn [bind]. split; [auto|split; [auto|split; [auto|lia]]].
    - destruct (nth_lt (s_levels s) (S m)) as (ids & E); [lia|]. destruct ids as [|a b].
      + destruct IH as (lv & i' & r' & F & L1 & E1 & Em); [lia|]. exists lv, i', r'. split; [|split; [lia|split; [auto|]]].
        * cbn [find_leaf] in *. rewrite (get_Some _ _ _ E). cbn [bind]. exact F.
        * intros l ids Ll Hl. destruct (Nat.eq_dec l (S m)); [subst; congruence|]. apply (Em l); [lia|auto].
      + exists (S m), a, b. cbn [find_leaf]. rewrite (get_Some _ _ _ E). cbn [bind]. split; [auto|split; [auto|split; [auto|lia]]].
  Qed.

  Lemma order_from (L : list (list nat)) lv ids : length L = 3 -> nth_error L lv = Some ids -> (forall l x, lv < l -> nth_error L l = Some x -> x = []) ->
    concat (rev L) = ids ++ concat (rev (firstn lv L)).
  Proof.
    clear Htop. intros E H Em. destruct L as [|a [|b [|d [|]]]]; try discriminate. destruct lv as [|[|[|lv]]]; cbn in H; [| | |destruct lv; discriminate]; injection H as <-; cbn; rewrite ?app_nil_r.
    - rewrite (Em 1 b), (Em 2 d); auto.
    - rewrite (Em 2 d); auto.
    - reflexivity.
  Qed.

  Theorem release_op c ns k : calm c ns (fun j => j < length ns) -> inv (sup c) ns -> s_states (sup c) = [] ->
    until (fun c' => answers c' = answers c)
      (fun c' => exists ns' seeds, calm c' ns' (fun j => j < length ns) /\ turns (concat (rev (s_levels (sup c)))) ns [] ns' seeds /\ inv (sup c') ns' /\
         recorded (sup c') ns' /\ answers c' = answers c ++ [mk (Ext, k) HReleaseSproutsEnd] /\ visited c' = visited c ++ concat (rev (s_levels (sup c))) /\
         s_cost (sup c') = s_cost (sup c) /\ s_ratios (sup c') = s_ratios (sup c))
      (ask _ k HReleaseSprouts c).
  Proof.
    intros Cm Iv St. set (k0 := length (s_tasks (sup c))).
    assert (L0 : exists i r, nth_error (s_levels (sup c)) 0 = Some (i :: r)).
    { destruct (nth_lt (s_levels (sup c)) 0) as (ids & E); [rewrite (iv_levels _ _ _ Iv); lia|]. destruct (iv_root _ _ _ Iv) as (n & Hn & Ln).
      assert (In 0 ids) by (apply (iv_listed _ _ _ Iv _ _ E); eauto). destruct ids as [|a b]; [destruct H|eauto]. }
    destruct (find_leaf_spec (sup c)) with (m := max_level C) as (lv & i & r & Fl & Llv & Eids & Em); [rewrite (iv_levels _ _ _ Iv); lia|exact L0|rewrite (iv_levels _ _ _ Iv); lia|].
    assert (Em' : forall l x, lv < l -> nth_error (s_levels (sup c)) l = Some x -> x = []).
    { intros l x Ll Hx. destruct (Nat.lt_ge_cases (max_level C) l) as [G|G]; [|now apply (Em l)]. destruct x as [|j x]; [auto|].
      destruct (proj1 (proj2 (iv_listed _ _ _ Iv _ _ Hx) j)) as (n & Hn & Ln); [now left|]. pose proof (iv_level _ _ _ Iv _ _ Hn). lia. }
    assert (Nl : forall j n, nth_error ns j = Some n -> level n <= lv).
    { intros j n Hn. destruct (Nat.lt_ge_cases lv (level n)) as [G|G]; [|auto]. pose proof (iv_level _ _ _ Iv _ _ Hn) as Lb.
      destruct (nth_lt (s_levels (sup c)) (level n)) as (ids & E); [rewrite (iv_levels _ _ _ Iv); lia|]. rewrite (Em' _ _ G E) in E.
      destruct (proj2 (iv_listed _ _ _ Iv _ _ E) j) as (_ & X). destruct X. eauto. }
    set (t := TRelease Ext (Ext, k) lv 0 [] []).
    assert (Er : sup_receive (sup c) Ext (mk (Ext, k) HReleaseSprouts) = Ok (with_task (sup c) t, [(Nd i, mk (Sup, k0) (NReleaseSprouts []))])).
    { unfold DhgsModel.sup_receive. cbn [m_body m_id start_task]. rewrite Fl. cbn [bind of_option]. unfold release_request. rewrite (get_Some _ _ _ Eids). reflexivity. }
    assert (Li : i < length ns).
    { destruct (proj1 (proj2 (iv_listed _ _ _ Iv _ _ Eids) i)) as (n & Hn & _); [now left|]. apply nth_error_Some. congruence. }
    eapply ask_until; [exact Cm|exact Er|reflexivity| |].
    { intros j Lj. cbn. destruct (Nat.eqb_spec i j); [lia|reflexivity]. }
    intros c1 Sh E1 _ A1 V1. rewrite <- V1.
    eapply until_weaken; [eapply (round ns (sup c) (answers c) (visited c1) k k0 Iv _ c1 ns [] lv 0 (i :: r) [] [] [] [] i r)| |].
    - apply le_n.
    - split; rewrite ?E1; auto.
      + eapply shape_ext; [exact Sh| | | |]; auto. intros j. cbn. destruct (Nat.eqb_spec i j) as [->|Nj]; [now rewrite upd_same|now rewrite upd_other by auto].
      + destruct Iv. split; assumption.
      + cbn. unfold k0. rewrite nth_error_app2, Nat.sub_diag by auto. reflexivity.
      + cbn [app]. exact (order_from _ _ _ (iv_levels _ _ _ Iv) Eids Em').
      + constructor.
      + intros p Np. split; [intros []|]. unfold explored_at. cbn [filter map]. rewrite app_nil_r. intros Hp. apply in_map_iff in Hp. destruct Hp as (x & _ & Hx). apply filter_In in Hx. destruct Hx as (Hx & Lx).
        apply In_nth_error in Hx. destruct Hx as (j & Hj). pose proof (Nl j x Hj). apply Nat.eqb_eq in Lx. lia.
      + constructor.
      + intros j n0 Hj. exists (sprouts n0). now rewrite with_sprouts_same.
      + intros q [].
      + intros j n Hj Lj. assert (j < length ns) by (apply nth_error_Some; congruence). lia.
      + cbn [with_task s_states]. now rewrite St.
      + now rewrite app_nil_r.
    - auto.
    - intros c' (ns' & seeds & P1 & P2 & P3 & P4 & P5 & P6 & P7 & P8). exists ns', seeds. split; [exact P1|split; [exact P2|split; [exact P3|split; [exact P4|split; [exact P5|split; [exact P6|split; assumption]]]]]].
  Qed.
End Phase.
