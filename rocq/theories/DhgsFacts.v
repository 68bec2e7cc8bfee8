(** Consequences of the release rounds, and executable schedules for the examples. *)
From Verif Require Import Spec Base VarModel VarProofs HgsModel HgsSpec HgsProofs DhgsModel DhgsSpec DhgsNet DhgsGather DhgsOps DhgsRelease DhgsPhase DhgsLife.
From Coq Require Import QArith Permutation Sorted.
Local Open Scope nat_scope.

Section Facts.
  Context {drv draw : Type}.
  Variable dnew : nat -> draw -> list vec -> drv.
  Variable C : config.
  Variable Wnew : nat -> draw.
  Notation node := (node drv).
  Notation births := (@births draw C).
  Notation grown := (grown dnew Wnew).
  Notation turn := (turn dnew C Wnew).
  Notation turns := (turns dnew C Wnew).
  Notation fresh_node := (fresh_node drv draw dnew Wnew).
  Implicit Types (ns : list node) (n : node).

  Lemma births_length lv e room ds ps : births lv e room ds ps -> length ps <= room.
  Proof. induction 1; cbn; lia. Qed.

  Lemma turns_spec order ns seeds ns' seeds' : turns order ns seeds ns' seeds' -> NoDup order ->
    (forall i n j, nth_error ns i = Some n -> In j (sprouts n) -> j < length ns) -> (forall i, In i order -> i < length ns) ->
    length ns <= length ns' /\
    (forall j m, nth_error ns' j = Some m -> length ns <= j -> alive m = true) /\
    forall i n, nth_error ns i = Some n -> exists new, nth_error ns' i = Some (with_sprouts n (sprouts n ++ new)) /\ (~ In i order -> new = []) /\
      (new <> [] -> ripe n = true /\ level n < max_level C /\ living_sprouts ns n < max_sprouts_no C) /\ length new <= sproutiveness C /\
      forall j, In j new -> length ns <= j /\ exists m, nth_error ns' j = Some m /\ level m = S (level n) /\ alive m = true.
  Proof.
    induction 1 as [ns seeds|is i ns seeds ns1 seeds1 ns2 seeds2 _ IH (n1 & ps & Hn1 & Rl & -> & _)]; intros ND Sp Or.
    - split; [auto|split]; [intros j m Hj Lj; assert (j < length ns) by (apply nth_error_Some; congruence); lia|].
      intros i n Hn. exists []. rewrite app_nil_r, with_sprouts_same. split; [auto|split; [auto|split; [congruence|split; [cbn; lia|intros j []]]]].
    - apply NoDup_remove in ND. rewrite app_nil_r in ND. destruct ND as (ND & Ni).
      destruct IH as (Len & Yng & Old); [exact ND|exact Sp|intros j Hj; apply Or, in_or_app; auto|].
      assert (Li : i < length ns) by (apply Or, in_or_app; right; now left).
      destruct (nth_lt ns i Li) as (n0 & Hn0). destruct (Old i n0 Hn0) as (new0 & H0 & Nw & _ & _). rewrite (Nw Ni), app_nil_r, with_sprouts_same in H0.
      rewrite Hn1 in H0. injection H0 as ->.
      assert (Lv : living_sprouts ns1 n0 = living_sprouts ns n0).
      { unfold living_sprouts. f_equal. apply filter_ext_in. intros j Hj. pose proof (Sp i n0 j Hn0 Hj) as Lj. destruct (nth_lt ns j Lj) as (m & Hm).
        destruct (Old j m Hm) as (nw & Hm' & _). unfold alive_at. now rewrite Hm, Hm'. }
      rewrite Lv in Rl. split; [rewrite grown_length; lia|split].
      + intros j m Hj Lj. destruct (grown_inv _ _ _ _ _ _ _ _ _ Hn1 Hj) as [(L1 & y & Hy & ->)|(L1 & p & Hp & ->)]; [exact (Yng j y Hy Lj)|reflexivity].
      + intros j m Hm. destruct (Old j m Hm) as (nw & Hm' & Nw' & Wh & Ln & Bd).
        pose proof (grown_at dnew Wnew i n0 ns1 (S (level n0)) ps j _ Hn1 Hm') as G. cbn [sprouts with_sprouts] in G.
        destruct (Nat.eqb_spec j i) as [->|Ne].
        * rewrite Hn0 in Hm. injection Hm as <-. rewrite (Nw' Ni), app_nil_r in G. exists (seq (length ns1) (length ps)).
          split; [exact G|split; [|split; [|split]]].
          -- intros X. destruct X. apply in_or_app. right. now left.
          -- intros X. destruct (ripe n0); cbn [andb] in Rl; [|subst ps; destruct X; reflexivity].
             destruct (Nat.ltb_spec (level n0) (max_level C)); cbn [andb] in Rl; [|subst ps; destruct X; reflexivity].
             destruct (Nat.ltb_spec (living_sprouts ns n0) (max_sprouts_no C)); [auto|subst ps; destruct X; reflexivity].
          -- rewrite seq_length. destruct (_ && _); [eapply births_length; eauto|subst; cbn; lia].
          -- intros z Hz. apply in_seq in Hz. split; [lia|]. destruct (nth_lt ps (z - length ns1)) as (p & Hp); [lia|].
             exists (fresh_node z (S (level n0)) p). rewrite grown_new, Hp by lia. repeat split.
        * exists nw. split; [exact G|split; [|split; [|split]]]; auto.
          -- intros X. apply Nw'. intros Y. apply X, in_or_app. auto.
          -- intros z Hz. destruct (Bd z Hz) as (Lz & x & Hx & Lx & Ax). split; [auto|].
             pose proof (grown_at dnew Wnew i n0 ns1 (S (level n0)) ps z x Hn1 Hx) as Gz. eexists. split; [exact Gz|]. cbn. auto.
  Qed.

  Lemma turns_living order ns seeds ns' seeds' i n new : turns order ns seeds ns' seeds' -> NoDup order ->
    (forall i n j, nth_error ns i = Some n -> In j (sprouts n) -> j < length ns) -> (forall i, In i order -> i < length ns) ->
    nth_error ns i = Some n -> (forall j, In j new -> exists m, nth_error ns' j = Some m /\ alive m = true) ->
    living_sprouts ns' (with_sprouts n (sprouts n ++ new)) = living_sprouts ns n + length new.
  Proof.
    intros T ND Sp Or Hn Hnew. destruct (turns_spec _ _ _ _ _ T ND Sp Or) as (_ & _ & Old). unfold living_sprouts. cbn [sprouts with_sprouts].
    rewrite filter_app, app_length. f_equal.
    - f_equal. apply filter_ext_in. intros j Hj. destruct (nth_lt ns j (Sp i n j Hn Hj)) as (m & Hm). destruct (Old j m Hm) as (nw & Hm' & _). unfold alive_at. now rewrite Hm, Hm'.
    - f_equal. clear - Hnew. induction new as [|j new IH]; [reflexivity|]. cbn. destruct (Hnew j) as (m & Hm & Am); [now left|]. unfold alive_at at 1. rewrite Hm, Am. f_equal.
      apply IH. intros; apply Hnew; now right.
  Qed.
End Facts.

Lemma sorted_app {A} (R : A -> A -> Prop) a b : StronglySorted R a -> StronglySorted R b -> (forall x y, In x a -> In y b -> R x y) -> StronglySorted R (a ++ b).
Proof.
  intros Sa Sb H. induction Sa as [|x a Sa IH F]; [exact Sb|]. cbn. constructor; [apply IH; intros; apply H; [now right|auto]|].
  apply Forall_app. split; [exact F|]. apply Forall_forall. intros y Hy. apply H; [now left|auto].
Qed.
Lemma sorted_all {A} (R : A -> A -> Prop) l : (forall x y, In x l -> In y l -> R x y) -> StronglySorted R l.
Proof.
  induction l as [|x l IH]; intros H; constructor; [apply IH; intros; apply H; now right|]. apply Forall_forall. intros y Hy. apply H; [now left|now right].
Qed.
Lemma sorted_nth {A} (R : A -> A -> Prop) a x b y d : StronglySorted R (a ++ x :: b ++ y :: d) -> R x y.
Proof.
  induction a as [|z a IH]; cbn; intros S; inversion S as [|? ? S' F]; subst; [|auto].
  eapply Forall_forall; [exact F|]. apply in_or_app. right. now left.
Qed.

(** ---- executable schedules ---- *)
Section Pump.
  Context {drv draw : Type}.
  Variable dnew : nat -> draw -> list vec -> drv.
  Variable dstep : draw -> drv -> drv.
  Variable dcost : drv -> Z.
  Variable dfinal : draw -> drv -> drv * list vec.
  Variable ddelegates : drv -> list vec.
  Variable hv_of : list vec -> Q.
  Variable EPSILON : Q.
  Variable C : config.
  Variable W : nat -> nat -> ndraws draw.
  Variable Wnew : nat -> draw.
  Notation system := (system drv).
  Notation receive := (receive drv draw dnew dstep dcost dfinal ddelegates hv_of EPSILON C W Wnew).
  Notation deliver := (deliver drv draw dnew dstep dcost dfinal ddelegates hv_of EPSILON C W Wnew).
  Notation runs := (runs dnew dstep dcost dfinal ddelegates hv_of EPSILON C W Wnew).
  Notation answered := (answered dnew dstep dcost dfinal ddelegates hv_of EPSILON C W Wnew).
  Notation life := (life dnew dstep dcost dfinal ddelegates hv_of EPSILON C W Wnew).

  (* the first channel with mail, in the order of the list *)
  Fixpoint first_mail (chs : list (addr * addr)) (c : system) : option system :=
    match chs with
    | [] => None
    | (a, b) :: chs' => match c_mail _ c a b with
                        | [] => first_mail chs' c
                        | m :: q => match receive c a b m q with Ok c' => Some c' | _ => None end
                        end
    end.
  Lemma first_mail_ok chs c c' : first_mail chs c = Some c' -> deliver c (Ok c').
  Proof.
    induction chs as [|(a & b) chs IH]; [discriminate|]. cbn. destruct (c_mail drv c a b) as [|m q] eqn:E; [exact IH|].
    destruct (receive c a b m q) as [c1| |] eqn:E1; intros X; try discriminate. injection X as <-. rewrite <- E1. now constructor.
  Qed.
  Fixpoint pump (fuel : nat) (chs : list (addr * addr)) (target : nat) (c : system) : option system :=
    if length (answers c) =? target then Some c
    else match fuel with
         | 0 => None
         | S fuel' => match first_mail chs c with Some c' => pump fuel' chs target c' | None => None end
         end.
  Lemma pump_ok chs target : forall fuel c c', pump fuel chs target c = Some c' -> runs c c' /\ length (answers c') = target.
  Proof.
    induction fuel as [|fuel IH]; intros c c'; cbn; destruct (Nat.eqb_spec (length (answers c)) target) as [E|E]; intros X; try discriminate.
    - injection X as <-. split; [apply runs_none|auto].
    - injection X as <-. split; [apply runs_none|auto].
    - destruct (first_mail chs c) as [c1|] eqn:F; [|discriminate]. destruct (IH _ _ X) as (R & L). split; [|auto].
      eapply runs_cons; [apply (first_mail_ok _ _ _ F)|exact R].
  Qed.
  Definition request (fuel : nat) (chs : list (addr * addr)) (k : nat) (p : payload) (c : system) : option system :=
    pump fuel chs (S (length (answers c))) (ask _ k p c).
  Lemma request_ok fuel chs k p c c' : request fuel chs k p c = Some c' -> answered k p c c'.
  Proof. apply pump_ok. Qed.

  Definition obind {A B} (x : option A) (f : A -> option B) : option B := match x with Some a => f a | None => None end.
  (* the requests of a step, the first j of them *)
  Definition part_step (fuel : nat) (chs : list (addr * addr)) (j k : nat) (c : system) : option system :=
    let go p c := request fuel chs k p c in
    match j with
    | 0 => Some c
    | 1 => go HNewMetaepoch c
    | 2 => obind (go HNewMetaepoch c) (go HTrimNotProgressing)
    | 3 => obind (obind (go HNewMetaepoch c) (go HTrimNotProgressing)) (go HTrimRedundant)
    | 4 => obind (obind (obind (go HNewMetaepoch c) (go HTrimNotProgressing)) (go HTrimRedundant)) (go HReleaseSprouts)
    | _ => obind (obind (obind (obind (go HNewMetaepoch c) (go HTrimNotProgressing)) (go HTrimRedundant)) (go HReleaseSprouts)) (go HRevive)
    end.
  Lemma obind_some {A B} (x : option A) (f : A -> option B) y : obind x f = Some y -> exists a, x = Some a /\ f a = Some y.
  Proof. destruct x; [cbn; eauto|discriminate]. Qed.
  Lemma part_step_ok fuel chs j k c c' : life 0 c -> part_step fuel chs j k c = Some c' -> j <= 5 -> life (if j =? 5 then 0 else j) c'.
  Proof.
    intros L H Hj. unfold part_step in H. destruct j as [|[|[|[|[|[|]]]]]]; [| | | | | |lia]; cbn [Nat.eqb].
    - injection H as <-. exact L.
    - eapply life_metaepoch; [exact L|eapply request_ok; eauto].
    - apply obind_some in H. destruct H as (c1 & H1 & H). eapply life_trim; [|eapply request_ok; exact H]. eapply life_metaepoch; [exact L|eapply request_ok; eauto].
    - apply obind_some in H. destruct H as (c2 & H1 & H). apply obind_some in H1. destruct H1 as (c1 & H1 & H2).
      eapply life_redundant; [|eapply request_ok; exact H]. eapply life_trim; [|eapply request_ok; exact H2]. eapply life_metaepoch; [exact L|eapply request_ok; eauto].
    - apply obind_some in H. destruct H as (c3 & H1 & H). apply obind_some in H1. destruct H1 as (c2 & H1 & H3). apply obind_some in H1. destruct H1 as (c1 & H1 & H2).
      eapply life_release; [|eapply request_ok; exact H]. eapply life_redundant; [|eapply request_ok; exact H3]. eapply life_trim; [|eapply request_ok; exact H2]. eapply life_metaepoch; [exact L|eapply request_ok; eauto].
    - apply obind_some in H. destruct H as (c4 & H1 & H). apply obind_some in H1. destruct H1 as (c3 & H1 & H4). apply obind_some in H1. destruct H1 as (c2 & H1 & H3). apply obind_some in H1. destruct H1 as (c1 & H1 & H2).
      eapply life_revive; [|eapply request_ok; exact H]. eapply life_release; [|eapply request_ok; exact H4]. eapply life_redundant; [|eapply request_ok; exact H3]. eapply life_trim; [|eapply request_ok; exact H2]. eapply life_metaepoch; [exact L|eapply request_ok; eauto].
  Qed.
  (* m whole steps, then j requests of the next *)
  Fixpoint pump_steps (fuel : nat) (chs : list (addr * addr)) (m j k : nat) (c : system) : option system :=
    match m with
    | 0 => part_step fuel chs j k c
    | S m' => obind (part_step fuel chs 5 k c) (pump_steps fuel chs m' j k)
    end.
  Lemma pump_steps_ok fuel chs j k : j <= 5 -> forall m c c', life 0 c -> pump_steps fuel chs m j k c = Some c' -> life (if j =? 5 then 0 else j) c'.
  Proof.
    intros Hj. induction m as [|m IH]; intros c c' L H; cbn [pump_steps] in H; [eapply part_step_ok; eauto|].
    apply obind_some in H. destruct H as (c1 & H1 & H2). apply (IH c1); [|exact H2]. apply (part_step_ok _ _ 5 _ _ _ L H1); lia.
  Qed.
End Pump.
