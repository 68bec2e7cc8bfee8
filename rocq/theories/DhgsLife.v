(** What holds at every point of the life of a DistributedHGS. *)
From Verif Require Import Spec Base VarModel VarProofs HgsModel HgsSpec HgsProofs DhgsModel DhgsSpec DhgsNet DhgsGather DhgsOps DhgsRelease DhgsPhase.
From Coq Require Import QArith Permutation Sorted.
Local Open Scope nat_scope.

Section Life.
  Context {drv draw : Type}.
  Variable dnew : nat -> draw -> list vec -> drv.
  Variable dstep : draw -> drv -> drv.
  Variable dcost : drv -> Z.
  Variable dfinal : draw -> drv -> drv * list vec.
  Variable ddelegates : drv -> list vec.
  Variable hv_of : list vec -> Q.
  Variable EPSILON : Q.
  Variable C : config.
  Variable W : nat -> nat -> ndraws draw.
  Variable Wnew : nat -> draw.
  Notation system := (system drv).
  Notation node := (node drv).
  Notation deliver := (deliver drv draw dnew dstep dcost dfinal ddelegates hv_of EPSILON C W Wnew).
  Notation until := (until dnew dstep dcost dfinal ddelegates hv_of EPSILON C W Wnew).
  Notation runs := (runs dnew dstep dcost dfinal ddelegates hv_of EPSILON C W Wnew).
  Notation served := (served dnew dstep dcost dfinal ddelegates hv_of EPSILON C W Wnew).
  Notation answered := (answered dnew dstep dcost dfinal ddelegates hv_of EPSILON C W Wnew).
  Notation life := (life dnew dstep dcost dfinal ddelegates hv_of EPSILON C W Wnew).
  Notation dtree := (dtree dnew C Wnew).
  Notation node_is := (node_is dnew Wnew).
  Notation shape := (shape dnew Wnew).
  Notation calm := (calm dnew Wnew).
  Notation kept := (kept dnew Wnew).
  Notation inv := (inv C).
  Notation fresh_node := (fresh_node drv draw dnew Wnew).
  Notation trimmed := (trimmed EPSILON).
  Notation turns := (turns dnew C Wnew).
  Notation sup c := (c_sup drv c). Notation actor c i := (c_nodes drv c i). Notation mail c a b := (c_mail drv c a b).
  Implicit Types (c : system) (ns : list node) (s : supervisor) (n : node).

  Lemma calm_tree c ns R : calm c ns R -> inv (sup c) ns -> dtree c ns.
  Proof.
    intros Cm Iv. destruct Cm as [S1 S2 S3 _ _ _ _].
    assert (Nd1 : forall i n, nth_error ns i = Some n -> node_is c i n).
    { intros i n Hn. destruct (S1 i n Hn) as (b & V & _). destruct V as [V1 V2 V3|k lv pop V1 V2 V3 V4|k k' lv pop V1 V2 V3]; [now left| |]; right; (split; [auto|]).
      - exists (Sup, k), lv, pop. rewrite V4. split; [now left|auto].
      - exists (Sup, k), lv, pop. rewrite V3. split; [right; now left|auto]. }
    split.
    - intros i n. split; [apply Nd1|]. intros [An|(An & id & lv & pop & Im & ->)].
      + destruct (Nat.lt_ge_cases i (length ns)) as [L|L]; [|destruct (S3 i L) as (E & _); rewrite E in An; discriminate].
        destruct (nth_lt ns i L) as (m & Hm). destruct (S1 i m Hm) as (b & V & _). inversion V; congruence.
      + destruct (Nat.lt_ge_cases i (length ns)) as [L|L]; [|destruct (S3 i L) as (_ & _ & _ & E & _); rewrite E in Im; destruct Im].
        destruct (nth_lt ns i L) as (m & Hm). destruct (S1 i m Hm) as (b & V & _). destruct V as [V1 V2 V3|k lv' pop' V1 V2 V3 V4|k k' lv' pop' V1 V2 V3]; [congruence| |].
        * rewrite V4 in Im. destruct Im as [[= <- <- <-]|[]]. congruence.
        * rewrite V3 in Im. destruct Im as [[=]|[[= <- <- <-]|[]]]. congruence.
    - apply (iv_nodes _ _ _ Iv).
    - split; [apply (iv_levels _ _ _ Iv)|]. apply (iv_listed _ _ _ Iv).
    - intros n Hn. apply In_nth_error in Hn. destruct Hn as (i & Hi). eapply iv_level; eauto.
    - apply (iv_root _ _ _ Iv).
    - apply (iv_sprouts _ _ _ Iv).
    - intros n Hn. apply In_nth_error in Hn. destruct Hn as (i & Hi). eapply iv_flags; eauto.
  Qed.

  Lemma tree_unique c ns ns' : dtree c ns -> dtree c ns' -> ns = ns'.
  Proof.
    intros T T'. assert (E : forall i, nth_error ns i = nth_error ns' i).
    { intros i. destruct (nth_error ns i) as [n|] eqn:E.
      - symmetry. apply (dt_node _ _ _ _ _ T'), (dt_node _ _ _ _ _ T), E.
      - destruct (nth_error ns' i) as [n|] eqn:E'; [|auto]. apply (dt_node _ _ _ _ _ T'), (dt_node _ _ _ _ _ T) in E'. congruence. }
    clear - E. revert ns' E. induction ns as [|x l IH]; intros [|y l'] E; auto; try (specialize (E 0); discriminate).
    f_equal; [specialize (E 0); now injection E|]. apply IH. intros i. exact (E (S i)).
  Qed.

  (** Nothing but stray mail is under way: it changes nothing. *)
  Lemma calm_deliver c ns R o : calm c ns R -> deliver c o -> exists c', o = Ok c' /\ calm c' ns R /\ sup c' = sup c /\ answers c' = answers c /\ visited c' = visited c.
  Proof.
    intros Cm D. destruct (shape_deliver dnew dstep dcost dfinal ddelegates hv_of EPSILON C W Wnew _ _ _ _ _ _ _ _ _ Cm D) as [(c' & -> & Sh & (K1 & K2 & K3 & _) & _)|Rl].
    - exists c'. auto.
    - destruct Rl as [i n m q Hn V Hr|i m q Hi Hr Hm|m q Hx|m q Hx|i j m q Hx]; discriminate.
  Qed.
  Lemma calm_runs c ns R c' : calm c ns R -> runs c c' -> calm c' ns R /\ sup c' = sup c /\ answers c' = answers c /\ visited c' = visited c.
  Proof.
    intros Cm Rn. induction Rn as [|c1 c2 _ (I1 & I2 & I3 & I4) D]; [auto|].
    destruct (calm_deliver _ _ _ _ I1 D) as (c3 & [= <-] & X1 & X2 & X3 & X4). split; [auto|]. repeat split; congruence.
  Qed.

  Lemma runs_cons c c1 c2 : deliver c (Ok c1) -> runs c1 c2 -> runs c c2.
  Proof. intros D Rn. induction Rn; [eapply runs_more; [apply runs_none|exact D]|]. eapply runs_more; eauto. Qed.
  Lemma runs_trans c c1 c2 : runs c c1 -> runs c1 c2 -> runs c c2.
  Proof. intros R1 R2. induction R2; [auto|]. eapply runs_more; eauto. Qed.
  Lemma until_runs (Q P : system -> Prop) c c' : until Q P c -> runs c c' -> Q c' \/ exists c1, P c1 /\ runs c1 c'.
  Proof.
    intros U Rn. assert (X : (Q c' /\ until Q P c') \/ exists c1, P c1 /\ runs c1 c').
    { induction Rn as [|c1 c2 Rn IH D].
      - destruct U as [c Pc|c Qc E N F]; [right; exists c; split; [auto|apply runs_none]|]. left. split; [auto|]. now apply until_later.
      - destruct IH as [(Qc & U1)|(c0 & Pc & Rc)].
        + destruct U1 as [c1 Pc|c1 _ E N F].
          * right. exists c1. split; [auto|]. eapply runs_more; [apply runs_none|exact D].
          * specialize (F c2 D). destruct F as [c2 Pc|c2 Qc2 E2 N2 F2]; [right; exists c2; split; [auto|apply runs_none]|]. left. split; [auto|]. now apply until_later.
        + right. exists c0. split; [auto|]. eapply runs_more; eauto. }
    destruct X as [(Qc & _)|X]; auto.
  Qed.
  Lemma until_reach (Q P : system -> Prop) c : until Q P c -> exists c', runs c c' /\ P c'.
  Proof.
    intros U. induction U as [c Pc|c Qc (o & D) N F IH]; [exists c; split; [apply runs_none|auto]|].
    destruct (N o D) as (c1 & ->). destruct (IH c1 D) as (c' & Rn & Pc). exists c'. split; [eapply runs_cons; eauto|auto].
  Qed.

  (** A request that ends with one answer and quiet mail. *)
  Definition quiet (P : list node -> (nat -> Prop) -> system -> Prop) (k : nat) (a0 : list message) (c' : system) : Prop :=
    exists ns R, calm c' ns R /\ (exists a, answers c' = a0 ++ [mk (Ext, k) a]) /\ P ns R c'.

  Lemma answered_quiet P k p c c' : until (fun c' => answers c' = answers c) (quiet P k (answers c)) (ask _ k p c) -> answered k p c c' ->
    exists c1, quiet P k (answers c) c1 /\ runs c1 c'.
  Proof.
    intros U (Rn & Le). destruct (until_runs _ _ _ _ U Rn) as [E|X]; [rewrite E in Le; lia|exact X].
  Qed.

  Hypothesis Htop : max_level C <= 2.
  Hypothesis Hlen : forall l, l <= max_level C -> 0 < nth l (metaepoch_lens C) 0.

  Definition state (pc : nat) c ns (R : nat -> Prop) : Prop :=
    calm c ns R /\ inv (sup c) ns /\
    match pc with
    | 0 => existsb (@alive drv) ns = true
    | 1 | 2 | 3 => (forall j, j < length ns -> R j) /\ s_states (sup c) = []
    | _ => recorded (sup c) ns
    end.

  Lemma state_sup pc c c' ns R : state pc c ns R -> calm c' ns R -> sup c' = sup c -> state pc c' ns R.
  Proof. intros (_ & Iv & X) Cm E. unfold state. rewrite E. auto. Qed.
  Lemma calm_all c ns (R : nat -> Prop) : calm c ns R -> (forall j, j < length ns -> R j) -> calm c ns (fun j => j < length ns).
  Proof. intros Cm H. eapply shape_ext; [exact Cm| | | |]; auto. Qed.

  Lemma metaepoch_life c ns R k : state 0 c ns R ->
    until (fun c' => answers c' = answers c)
      (fun c' => exists ns', state 1 c' ns' (fun j => j < length ns') /\ length ns' = length ns /\ visited c' = visited c /\
         (forall i n, nth_error ns i = Some n -> exists n', nth_error ns' i = Some n' /\ ran dstep dcost dfinal ddelegates hv_of C n n') /\
         s_ratios (sup c') = s_ratios (sup c) /\
         answers c' = answers c ++ [mk (Ext, k) (HMetaepochEnd (s_cost (sup c')))] /\
         exists m, s_cost (sup c') = (s_cost (sup c) + m)%Q /\
           (exists i n n', nth_error ns i = Some n /\ nth_error ns' i = Some n' /\ alive n = true /\ m = weighted_cost C n n') /\
           (forall i n n', nth_error ns i = Some n -> nth_error ns' i = Some n' -> alive n = true -> (weighted_cost C n n' <= m)%Q))
      (ask _ k HNewMetaepoch c).
  Proof.
    intros (Cm & Iv & Al). eapply until_weaken; [apply (metaepoch_op dnew dstep dcost dfinal ddelegates hv_of EPSILON C W Wnew Htop c ns R k Cm Iv)|auto|].
    - apply existsb_exists in Al. destruct Al as (n & Hn & An). apply In_nth_error in Hn. destruct Hn as (i & Hi). exists i, n. split; [auto|split; [auto|]]. apply Hlen. eapply iv_level; eauto.
    - intros c' (ns' & P1 & P2 & P3 & P4 & P5 & P6 & P7 & P8 & m & P9 & P10 & P11). exists ns'.
      split; [split; [exact P1|split; [exact P5|split; [auto|exact P6]]]|]. split; [exact P2|split; [exact P3|split; [exact P4|split; [exact P7|split; [exact P8|]]]]].
      exists m. split; [exact P9|split; [exact P10|]]. intros i n n' H1 H2 H3. apply (P11 i n n' H1 H2 H3). apply Hlen. exact (iv_level _ _ _ Iv _ _ H1).
  Qed.

  Lemma trimmed_inv s s' ns ns' r : inv s ns -> fields s s' -> length ns' = length ns ->
    (forall i n, nth_error ns i = Some n -> exists n', nth_error ns' i = Some n' /\ trimmed r n n') -> inv s' ns'.
  Proof.
    intros Iv (F1 & F2 & F3 & F4 & F5) L H. eapply inv_keep; [exact Iv|congruence|congruence|congruence|exact L|].
    intros i n Hn. destruct (H i n Hn) as (n' & Hn' & T). exists n'. split; [exact Hn'|]. eapply trimmed_keeps; eauto.
  Qed.

  Lemma trim_life c ns R k : state 1 c ns R ->
    until (fun c' => answers c' = answers c)
      (fun c' => exists ns', state 2 c' ns' (fun j => j < length ns') /\ length ns' = length ns /\ visited c' = visited c /\
         answers c' = answers c ++ [mk (Ext, k) HTrimNotProgressingEnd] /\ fields (sup c) (sup c') /\
         forall i n, nth_error ns i = Some n -> exists n', nth_error ns' i = Some n' /\ trimmed (s_ratios (sup c)) n n')
      (ask _ k HTrimNotProgressing c).
  Proof.
    intros (Cm & Iv & Rd & St). eapply until_weaken; [apply (trim_op dnew dstep dcost dfinal ddelegates hv_of EPSILON C W Wnew Htop c ns R k Cm Iv)|auto|].
    intros c' (ns' & P1 & P2 & P3 & P4 & P5 & P6). exists ns'.
    split; [split; [|split; [eapply trimmed_inv; eauto|split; [auto|]]]|].
    - eapply shape_ext; [exact P1| | | |]; auto. intros j Hj. right. lia.
    - destruct P3 as (_ & _ & _ & E & _). congruence.
    - auto.
  Qed.
  Lemma fields_inv s s' ns : inv s ns -> fields s s' -> inv s' ns.
  Proof. intros Iv F. eapply inv_fields; eauto. Qed.
  Lemma redundant_life c ns R k : state 2 c ns R ->
    until (fun c' => answers c' = answers c)
      (fun c' => state 3 c' ns (fun j => j < length ns) /\ visited c' = visited c /\ answers c' = answers c ++ [mk (Ext, k) HTrimRedundantEnd] /\ fields (sup c) (sup c'))
      (ask _ k HTrimRedundant c).
  Proof.
    intros (Cm & Iv & Rd & St). eapply until_weaken; [apply (redundant_op dnew dstep dcost dfinal ddelegates hv_of EPSILON C W Wnew Htop c ns R k Cm Iv)|auto|].
    intros c' (P1 & P2 & P3 & P4). split; [split; [|split; [eapply fields_inv; eauto|split; [auto|]]]|].
    - eapply shape_ext; [exact P1| | | |]; auto. intros j Hj. now right.
    - destruct P3 as (_ & _ & _ & E & _). congruence.
    - auto.
  Qed.
  Lemma release_life c ns R k : state 3 c ns R ->
    until (fun c' => answers c' = answers c)
      (fun c' => exists ns' seeds, state 4 c' ns' (fun j => j < length ns) /\ turns (concat (rev (s_levels (sup c)))) ns [] ns' seeds /\
         answers c' = answers c ++ [mk (Ext, k) HReleaseSproutsEnd] /\ visited c' = visited c ++ concat (rev (s_levels (sup c))) /\
         s_cost (sup c') = s_cost (sup c) /\ s_ratios (sup c') = s_ratios (sup c))
      (ask _ k HReleaseSprouts c).
  Proof.
    intros (Cm & Iv & Rd & St). eapply until_weaken; [apply (release_op dnew dstep dcost dfinal ddelegates hv_of EPSILON C W Wnew Htop c ns k (calm_all _ _ _ Cm Rd) Iv St)|auto|].
    intros c' (ns' & seeds & P1 & P2 & P3 & P4 & P5). exists ns', seeds. split; [split; [exact P1|split; [exact P3|exact P4]]|]. split; [exact P2|exact P5].
  Qed.
  Lemma revive_life c ns R k : state 4 c ns R ->
    until (fun c' => answers c' = answers c)
      (fun c' => exists ns', state 0 c' ns' R /\ visited c' = visited c /\ answers c' = answers c ++ [mk (Ext, k) HReviveEnd] /\
         s_cost (sup c') = s_cost (sup c) /\
         if existsb (@alive drv) ns then ns' = ns /\ s_ratios (sup c') = s_ratios (sup c)
         else ns' = map (fun n => with_flags drv n true false) ns /\ halved (S (max_level C)) (s_ratios (sup c)) (s_ratios (sup c')))
      (ask _ k HRevive c).
  Proof.
    intros (Cm & Iv & Rc). eapply until_weaken; [apply (revive_op dnew dstep dcost dfinal ddelegates hv_of EPSILON C W Wnew Htop c ns R k Cm Iv Rc)|auto|].
    intros c' (ns' & P1 & P2 & P3 & P4 & P5 & P6). exists ns'. split; [split; [exact P1|split; [exact P4|]]|auto].
    destruct (existsb (@alive drv) ns) eqn:E; [destruct P6 as (-> & _); exact E|]. destruct P6 as (-> & _).
    destruct (iv_root _ _ _ Iv) as (n & Hn & _). apply existsb_exists. exists (with_flags drv n true false). split; [|reflexivity].
    apply in_map_iff. exists n. split; [reflexivity|]. eapply nth_error_In; eauto.
  Qed.
  Lemma population_life c ns R k : state 0 c ns R ->
    until (fun c' => answers c' = answers c)
      (fun c' => state 0 c' ns R /\ visited c' = visited c /\ fields (sup c) (sup c') /\
         exists order, Permutation order ns /\ answers c' = answers c ++ [mk (Ext, k) (HPopulations (flat_map (fun n => population n) order))])
      (ask _ k HPopulation c).
  Proof.
    intros (Cm & Iv & Al). eapply until_weaken; [apply (population_op dnew dstep dcost dfinal ddelegates hv_of EPSILON C W Wnew Htop c ns R k Cm Iv)|auto|].
    intros c' (P1 & P2 & P3 & P4). split; [split; [|split; [eapply fields_inv; eauto|exact Al]]|auto].
    eapply shape_ext; [exact P1| | | |]; auto. intros j Hj. now left.
  Qed.
  Lemma status_life c ns R k lv : state 0 c ns R ->
    until (fun c' => answers c' = answers c)
      (fun c' => state 0 c' ns R /\ visited c' = visited c /\ fields (sup c) (sup c') /\
         exists order, Permutation order (asked ns lv) /\ answers c' = answers c ++ [mk (Ext, k) (HStatuses (map (node_status drv Sup) order))])
      (ask _ k (HCheckStatus lv) c).
  Proof.
    intros (Cm & Iv & Al). eapply until_weaken; [apply (status_op dnew dstep dcost dfinal ddelegates hv_of EPSILON C W Wnew Htop c ns R k lv Cm Iv)|auto|].
    intros c' (P1 & P2 & P3 & P4). split; [split; [|split; [eapply fields_inv; eauto|exact Al]]|auto].
    eapply shape_ext; [exact P1| | | |]; auto. intros j Hj. now left.
  Qed.

  (** Every state of the life is one of those. *)
  Lemma start_state ratios pop : S (max_level C) <= length ratios -> state 0 (initial drv ratios pop) [fresh_node 0 0 pop] (fun _ => False).
  Proof.
    intros Lr. split; [|split; [|reflexivity]].
    - assert (M : forall a b, mail (initial drv ratios pop) a b = if addr_eqb a Sup && addr_eqb b (Nd 0) then [mk (Sup, 0) HHello; mk (Sup, 0) (NReset 0 pop)] else []).
      { intros a b. cbn. unfold put, create_node. cbn. destruct a; cbn; auto. destruct b as [| |[|j]]; reflexivity. }
      split.
      + intros [|i] n Hn; [|destruct i; discriminate]. injection Hn as <-. exists false. split; [|intros []]. eapply view_hello; [reflexivity|reflexivity|]. rewrite M. reflexivity.
      + intros i _. now rewrite M.
      + intros i Hi. cbn in Hi. rewrite !M. destruct i; [lia|]. repeat split.
      + now rewrite M.
      + now rewrite M.
      + intros i j. now rewrite M.
      + rewrite !M. split; [reflexivity|split; [reflexivity|]]. intros i. now rewrite !M.
    - split; cbn; auto.
      + intros [|[|[|lv]]] ids E; cbn in E; [| | |destruct lv; discriminate]; injection E as <-.
        * split; [repeat constructor; intros []|]. intros i. split; [intros [<-|[]]; eexists; split; reflexivity|]. intros (n & Hn & _). destruct i as [|i]; [now left|destruct i; discriminate].
        * split; [constructor|]. intros i. split; [intros []|]. intros (n & Hn & Ln). destruct i as [|i]; [injection Hn as <-; discriminate|destruct i; discriminate].
        * split; [constructor|]. intros i. split; [intros []|]. intros (n & Hn & Ln). destruct i as [|i]; [injection Hn as <-; discriminate|destruct i; discriminate].
      + intros [|i] n Hn; [injection Hn as <-; cbn; lia|destruct i; discriminate].
      + eauto.
      + intros [|i] n Hn; [injection Hn as <-; cbn; split; [constructor|intros ? []]|destruct i; discriminate].
      + intros [|i] n l Hn Hl; [injection Hn as <-; discriminate|destruct i; discriminate].
      + intros [|i] n Hn; [injection Hn as <-; reflexivity|destruct i; discriminate].
  Qed.

  Lemma answered_state pc k p c c' (P : system -> Prop) : until (fun c' => answers c' = answers c) P (ask _ k p c) -> answered k p c c' ->
    (forall c1, P c1 -> exists ns R, state pc c1 ns R) -> exists ns R, state pc c' ns R.
  Proof.
    intros U (Rn & Le) H. destruct (until_runs _ _ _ _ U Rn) as [E|(c1 & Pc & R1)]; [rewrite E in Le; lia|].
    destruct (H c1 Pc) as (ns & R & St). exists ns, R. destruct (calm_runs _ _ _ _ (proj1 St) R1) as (Cm & Es & _). eapply state_sup; eauto.
  Qed.

  Theorem life_state pc c : life pc c -> exists ns R, state pc c ns R.
  Proof.
    induction 1 as [ratios pop Lr|pc c c' _ (ns & R & St) D|k c c' _ (ns & R & St) A|k lv c c' _ (ns & R & St) A|k c c' _ (ns & R & St) A|k c c' _ (ns & R & St) A|
                    k c c' _ (ns & R & St) A|k c c' _ (ns & R & St) A|k c c' _ (ns & R & St) A].
    - do 2 eexists. apply start_state, Lr.
    - exists ns, R. destruct (calm_deliver _ _ _ _ (proj1 St) D) as (c2 & [= <-] & Cm & Es & _). eapply state_sup; eauto.
    - eapply answered_state; [eapply population_life; exact St|exact A|]. intros c1 (X & _). eauto.
    - eapply answered_state; [eapply status_life; exact St|exact A|]. intros c1 (X & _). eauto.
    - eapply answered_state; [eapply metaepoch_life; exact St|exact A|]. intros c1 (ns' & X & _). eauto.
    - eapply answered_state; [eapply trim_life; exact St|exact A|]. intros c1 (ns' & X & _). eauto.
    - eapply answered_state; [eapply redundant_life; exact St|exact A|]. intros c1 (X & _). eauto.
    - eapply answered_state; [eapply release_life; exact St|exact A|]. intros c1 (ns' & seeds & X & _). eauto.
    - eapply answered_state; [eapply revive_life; exact St|exact A|]. intros c1 (ns' & X & _). eauto.
  Qed.

  Lemma serve k p c (P : system -> Prop) (F : payload -> system -> Prop) : until (fun c' => answers c' = answers c) P (ask _ k p c) ->
    (forall c', P c' -> exists ns R a, calm c' ns R /\ answers c' = answers c ++ [mk (Ext, k) a] /\ F a c') -> served k p c F.
  Proof.
    intros U H. eapply until_weaken; [exact U|auto|]. intros c' Pc. destruct (H c' Pc) as (ns & R & a & Cm & Ea & Fa). exists a. split; [exact Ea|split; [exact Fa|]].
    intros c2 Rn. now destruct (calm_runs _ _ _ _ Cm Rn) as (_ & _ & E & _).
  Qed.
End Life.
