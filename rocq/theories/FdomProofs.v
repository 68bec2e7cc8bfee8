(** Proofs about the dominance tests on doubles. *)
From Coq Require Import List ZArith Bool Lia Reals Lra.
From Flocq Require Import Core BinarySingleNaN.
From Verif Require Import FdomModel FdomSpec.
Import ListNotations.
Local Open Scope Z_scope.

Lemma leb_nan x y : (stands_for x = None \/ stands_for y = None) -> Bleb x y = false /\ Bltb x y = false.
Proof. intros [H|H]; destruct x as [|[]| |]; try discriminate; destruct y as [|[]| |]; try discriminate; split; reflexivity. Qed.

Lemma leb_iff x y a b : stands_for x = Some a -> stands_for y = Some b -> (Bleb x y = true <-> ext_le a b).
Proof.
  intros Hx Hy.
  assert (F : forall u v : double, stands_for u = Some (Fin (B2R u)) -> is_finite u = true -> stands_for v = Some (Fin (B2R v)) -> is_finite v = true ->
     (Bleb u v = true <-> ext_le (Fin (B2R u)) (Fin (B2R v)))).
  { intros u v _ Fu _ Fv. rewrite Bleb_correct by assumption. cbn [ext_le]. apply (iff_sym).
    destruct (Rle_bool_spec (B2R u) (B2R v)); split; intros; try easy; lra. }
  destruct x as [sx|[]| |sx mx ex Bx]; try discriminate; destruct y as [sy|[]| |sy my ey By]; try discriminate;
    cbn [stands_for] in Hx, Hy; injection Hx as <-; injection Hy as <-;
    try (apply F; reflexivity); cbn; split; intros; try easy.
Qed.

Lemma ltb_iff x y a b : stands_for x = Some a -> stands_for y = Some b -> (Bltb x y = true <-> ~ ext_le b a).
Proof.
  intros Hx Hy.
  assert (F : forall u v : double, is_finite u = true -> is_finite v = true ->
     (Bltb u v = true <-> ~ ext_le (Fin (B2R v)) (Fin (B2R u)))).
  { intros u v Fu Fv. rewrite Bltb_correct by assumption. cbn [ext_le].
    destruct (Rlt_bool_spec (B2R u) (B2R v)); split; intros; try easy; lra. }
  destruct x as [sx|[]| |sx mx ex Bx]; try discriminate; destruct y as [sy|[]| |sy my ey By]; try discriminate;
    cbn [stands_for] in Hx, Hy; injection Hx as <-; injection Hy as <-;
    try (apply F; reflexivity); cbn; split; intros; try easy; tauto.
Qed.

Lemma ext_refl a : ext_le a a.
Proof. destruct a; cbn; try exact Logic.I; lra. Qed.
Lemma ext_total a b : ext_le a b \/ ext_le b a.
Proof. destruct a as [|x|], b as [|y|]; cbn; auto. destruct (Rle_dec x y); [auto|right; lra]. Qed.
Lemma ext_trans a b c : ext_le a b -> ext_le b c -> ext_le a c.
Proof. destruct a, b, c; cbn; try easy; lra. Qed.
Lemma ext_dec a b : {ext_le a b} + {~ ext_le a b}.
Proof. destruct a as [|x|], b as [|y|]; cbn; auto. apply Rle_dec. Qed.

(** Three cases for a pair of coordinates. *)
Lemma ndir_cases x y a b : stands_for x = Some a -> stands_for y = Some b ->
  (f_ndir x y = 1 /\ ext_le a b /\ ~ ext_le b a) \/ (f_ndir x y = 0 /\ ext_le a b /\ ext_le b a) \/
  (f_ndir x y = -1 /\ ~ ext_le a b /\ ext_le b a).
Proof.
  intros Hx Hy. pose proof (leb_iff x y a b Hx Hy) as L. pose proof (ltb_iff x y a b Hx Hy) as T. unfold f_ndir.
  destruct (Bleb x y), (Bltb x y); cbn [Nat.add nth].
  - left. intuition.
  - right. left. split; [reflexivity|]. split; [now apply L|]. destruct (ext_dec b a) as [|N]; [assumption|]. apply T in N. discriminate.
  - exfalso. assert (~ ext_le b a) by now apply T. destruct (ext_total a b) as [H0|H0]; [apply L in H0; discriminate|contradiction].
  - right. right. split; [reflexivity|]. split; [intro H0; apply L in H0; discriminate|].
    destruct (ext_total a b) as [H0|H0]; [apply L in H0; discriminate|assumption].
Qed.
Lemma ndir_nan x y : (stands_for x = None \/ stands_for y = None) -> f_ndir x y = -1.
Proof. intro H. destruct (leb_nan x y H) as [E1 E2]. unfold f_ndir. rewrite E1, E2. reflexivity. Qed.

Definition no_worse (a b : list ext) := Forall2 ext_le a b.
Lemma loop_spec : forall xs ys a b, values xs a -> values ys b -> length xs = length ys -> forall dir, In dir [-1; 0; 1] ->
  (f_cmp_loop dir xs ys = 1 <-> dir <> -1 /\ no_worse a b /\ (dir = 1 \/ ~ no_worse b a)) /\
  (f_cmp_loop dir xs ys = -1 <-> dir <> 1 /\ no_worse b a /\ (dir = -1 \/ ~ no_worse a b)) /\
  In (f_cmp_loop dir xs ys) [-1; 0; 1].
Proof.
  unfold no_worse. intros xs ys a b Hx. revert ys b. induction Hx as [|x v xs a Hxv _ IH]; intros ys b Hy L dir Hd; destruct Hy as [|y w ys b Hyw Hy]; try discriminate.
  - cbn [f_cmp_loop]. split; [|split; [|exact Hd]].
    + split; [intros ->; split; [lia|split; [constructor|auto]]|]. intros (H1 & _ & [H2|H2]); [exact H2|exfalso; apply H2; constructor].
    + split; [intros ->; split; [lia|split; [constructor|auto]]|]. intros (H1 & _ & [H2|H2]); [exact H2|exfalso; apply H2; constructor].
  - cbn [length] in L. assert (L' : length xs = length ys) by lia. specialize (IH ys b Hy L').
    assert (C : forall u l w0 l', Forall2 ext_le (u :: l) (w0 :: l') <-> ext_le u w0 /\ Forall2 ext_le l l').
    { intros. split; [intro F; inversion F; auto|intros [F1 F2]; constructor; auto]. }
    cbn [f_cmp_loop]. rewrite !C.
    destruct (ndir_cases x y v w Hxv Hyw) as [(-> & H1 & H2)|[(-> & H1 & H2)|(-> & H1 & H2)]]; cbn [Z.eqb negb andb].
    + destruct Hd as [<-|[<-|[<-|[]]]]; cbn [Z.eqb negb andb Pos.eqb].
      * split; [|split; [|cbn; auto]]; split; intros; try lia; tauto.
      * destruct (IH 1) as (I1 & I2 & I3); [cbn; auto|]. rewrite I1, I2. split; [|split; [|exact I3]]; intuition (try lia).
      * destruct (IH 1) as (I1 & I2 & I3); [cbn; auto|]. rewrite I1, I2. split; [|split; [|exact I3]]; intuition (try lia).
    + destruct (IH dir Hd) as (I1 & I2 & I3). rewrite I1, I2. split; [|split; [|exact I3]]; intuition (try lia).
    + destruct Hd as [<-|[<-|[<-|[]]]]; cbn [Z.eqb negb andb Pos.eqb].
      * destruct (IH (-1)) as (I1 & I2 & I3); [cbn; auto|]. rewrite I1, I2. split; [|split; [|exact I3]]; intuition (try lia).
      * destruct (IH (-1)) as (I1 & I2 & I3); [cbn; auto|]. rewrite I1, I2. split; [|split; [|exact I3]]; intuition (try lia).
      * split; [|split; [|cbn; auto]]; split; intros; try lia; tauto.
Qed.

Lemma cmp_spec xs ys a b : values xs a -> values ys b -> length xs = length ys ->
  (f_domination_cmp xs ys = 1 <-> ext_dom a b) /\ (f_domination_cmp xs ys = -1 <-> ext_dom b a) /\
  (f_domination_cmp xs ys = 0 <-> ~ ext_dom a b /\ ~ ext_dom b a) /\ f_domination_cmp ys xs = - f_domination_cmp xs ys.
Proof.
  intros Hx Hy L. unfold f_domination_cmp, ext_dom.
  destruct (loop_spec xs ys a b Hx Hy L 0) as (I1 & I2 & I3); [cbn; auto|].
  destruct (loop_spec ys xs b a Hy Hx (eq_sym L) 0) as (J1 & J2 & J3); [cbn; auto|].
  unfold no_worse in *.
  assert (A1 : f_cmp_loop 0 xs ys = 1 <-> Forall2 ext_le a b /\ ~ Forall2 ext_le b a) by (rewrite I1; intuition lia).
  assert (A2 : f_cmp_loop 0 xs ys = -1 <-> Forall2 ext_le b a /\ ~ Forall2 ext_le a b) by (rewrite I2; intuition lia).
  assert (B1 : f_cmp_loop 0 ys xs = 1 <-> f_cmp_loop 0 xs ys = -1) by (rewrite J1, A2; intuition lia).
  assert (B2 : f_cmp_loop 0 ys xs = -1 <-> f_cmp_loop 0 xs ys = 1) by (rewrite J2, A1; intuition lia).
  split; [exact A1|]. split; [exact A2|]. rewrite <- A1, <- A2.
  set (u := f_cmp_loop 0 xs ys) in *. set (v := f_cmp_loop 0 ys xs) in *. clearbody u v.
  split; [destruct I3 as [<-|[<-|[<-|[]]]]; intuition lia|].
  destruct I3 as [<-|[<-|[<-|[]]]].
  - apply B1. reflexivity.
  - destruct J3 as [E|[E|[E|[]]]]; [symmetry in E; apply B2 in E; discriminate|lia|symmetry in E; apply B1 in E; discriminate].
  - apply B2. reflexivity.
Qed.

(** Once the direction is -1 it never becomes 1. *)
Lemma loop_stuck : forall xs ys, f_cmp_loop (-1) xs ys <> 1.
Proof.
  induction xs as [|x xs IH]; intros ys; destruct ys as [|y ys]; cbn [f_cmp_loop]; try lia.
  destruct (negb (f_ndir x y =? 0)) eqn:E; [|apply IH].
  destruct (negb (f_ndir x y =? -1)) eqn:E'; cbn [Z.eqb negb andb]; [lia|].
  apply negb_false_iff, Z.eqb_eq in E'. rewrite E'. apply IH.
Qed.

Lemma ndir_range x y : In (f_ndir x y) [-1; 0; 1].
Proof. unfold f_ndir. destruct (Bleb x y), (Bltb x y); cbn; auto. Qed.

Lemma loop_nan : forall xs ys, length xs = length ys -> (has_nan xs \/ has_nan ys) -> forall dir, In dir [-1; 0; 1] -> f_cmp_loop dir xs ys <> 1.
Proof.
  induction xs as [|x xs IH]; intros [|y ys] L H dir Hd; try discriminate.
  - exfalso. destruct H as [(z & [] & _)|(z & [] & _)].
  - cbn [length] in L. cbn [f_cmp_loop].
    destruct (stands_for x) eqn:Ex; [destruct (stands_for y) eqn:Ey|].
    + assert (H' : has_nan xs \/ has_nan ys).
      { destruct H as [(z & [<-|Hz] & Hn)|(z & [<-|Hz] & Hn)]; try congruence; [left|right]; exists z; auto. }
      destruct (negb (f_ndir x y =? 0)); [destruct (negb (dir =? 0) && negb (f_ndir x y =? dir)); [lia|]|]; (apply IH; [lia|exact H'|]); [apply ndir_range|exact Hd].
    + rewrite (ndir_nan x y) by auto. cbn [Z.eqb negb]. destruct Hd as [<-|[<-|[<-|[]]]]; cbn [Z.eqb negb andb Pos.eqb]; try lia; apply loop_stuck.
    + rewrite (ndir_nan x y) by auto. cbn [Z.eqb negb]. destruct Hd as [<-|[<-|[<-|[]]]]; cbn [Z.eqb negb andb Pos.eqb]; try lia; apply loop_stuck.
Qed.

Lemma dominates_values xs ys : length xs = length ys ->
  (f_dominates xs ys = true <-> exists a b, values xs a /\ values ys b /\ ext_dom a b).
Proof.
  intro L.
  assert (D : forall l, (exists a, values l a) \/ has_nan l).
  { induction l as [|x l IH]; [left; exists []; constructor|]. destruct (stands_for x) eqn:E.
    - destruct IH as [[a Ha]|(z & Hz & Hn)]; [left; exists (e :: a); constructor; assumption|right; exists z; split; [now right|exact Hn]].
    - right. exists x. split; [now left|exact E]. }
  assert (V : forall l a, values l a -> ~ has_nan l).
  { intros l a F (z & Hz & Hn). induction F as [|x v l a E _ IH]; [destruct Hz|]. destruct Hz as [<-|Hz]; [congruence|auto]. }
  unfold f_dominates. destruct (D xs) as [[a Ha]|N].
  - destruct (D ys) as [[b Hb]|N].
    + destruct (cmp_spec xs ys a b Ha Hb L) as (C1 & C2 & C3 & _).
      destruct (loop_spec xs ys a b Ha Hb L 0) as (_ & _ & I3); [cbn; auto|]. fold (f_domination_cmp xs ys) in I3.
      split.
      * intro H. apply Z.ltb_lt in H. exists a, b. split; [exact Ha|]. split; [exact Hb|]. apply C1. destruct I3 as [E|[E|[E|[]]]]; lia.
      * intros (a' & b' & Ha' & Hb' & H). apply Z.ltb_lt.
        assert (Q : forall l v v', values l v -> values l v' -> v = v').
        { clear. intros l v v' F. revert v'. induction F as [|x w l v E _ IH]; intros v' F'; inversion F'; subst; [reflexivity|]. f_equal; [congruence|auto]. }
        rewrite (Q _ _ _ Ha' Ha), (Q _ _ _ Hb' Hb) in H. apply C1 in H. lia.
    + split; [intro H|intros (a' & b' & _ & Hb' & _); exfalso; exact (V _ _ Hb' N)].
      exfalso. apply Z.ltb_lt in H. assert (G := loop_nan xs ys L (or_intror N) 0). fold (f_domination_cmp xs ys) in G.
      assert (R : forall d xs ys, In d [-1; 0; 1] -> In (f_cmp_loop d xs ys) [-1; 0; 1]).
      { clear. intros d xs. revert d. induction xs as [|x xs IH]; intros d [|y ys] Hd; cbn [f_cmp_loop]; auto.
        destruct (negb _); [destruct (negb _ && negb _); [cbn; auto|]|]; apply IH; auto using ndir_range. }
      specialize (R 0 xs ys ltac:(cbn; auto)). fold (f_domination_cmp xs ys) in R. apply G; [cbn; auto|]. destruct R as [E|[E|[E|[]]]]; lia.
  - split; [intro H|intros (a' & b' & Ha' & _); exfalso; exact (V _ _ Ha' N)].
    exfalso. apply Z.ltb_lt in H. assert (G := loop_nan xs ys L (or_introl N) 0). fold (f_domination_cmp xs ys) in G.
    assert (R : forall d xs ys, In d [-1; 0; 1] -> In (f_cmp_loop d xs ys) [-1; 0; 1]).
    { clear. intros d xs. revert d. induction xs as [|x xs IH]; intros d [|y ys] Hd; cbn [f_cmp_loop]; auto.
      destruct (negb _); [destruct (negb _ && negb _); [cbn; auto|]|]; apply IH; auto using ndir_range. }
    specialize (R 0 xs ys ltac:(cbn; auto)). fold (f_domination_cmp xs ys) in R. apply G; [cbn; auto|]. destruct R as [E|[E|[E|[]]]]; lia.
Qed.

Lemma ext_dom_trans a b c : ext_dom a b -> ext_dom b c -> ext_dom a c.
Proof.
  intros [H1 H2] [H3 H4].
  assert (T : forall a b c, Forall2 ext_le a b -> Forall2 ext_le b c -> Forall2 ext_le a c).
  { clear. intros a b c F. revert c. induction F as [|x y a b E _ IH]; intros c F'; inversion F'; subst; constructor; eauto using ext_trans. }
  split; [eauto|]. intro H5. apply H2. eauto.
Qed.

Lemma values_fun l v v' : values l v -> values l v' -> v = v'.
Proof. intros F. revert v'. induction F as [|x w l v E _ IH]; intros v' F'; inversion F'; subst; [reflexivity|]. f_equal; [congruence|auto]. Qed.

Lemma nsga_weak_values xs ys a b : values xs a -> values ys b -> length xs = length ys ->
  (f_nsga_weak xs ys = true <-> Forall2 ext_le a b).
Proof.
  intros Hx. revert ys b. induction Hx as [|x v xs a E _ IH]; intros ys b Hy L; destruct Hy as [|y w ys b E' Hy]; try discriminate; cbn [f_nsga_weak].
  - split; [constructor|reflexivity].
  - rewrite andb_true_iff, (leb_iff x y v w E E'), (IH ys b Hy) by (cbn in L; lia).
    split; [intros [F1 F2]; constructor; auto|intro F; inversion F; auto].
Qed.
Lemma nsga_weak_nan : forall xs ys, length xs = length ys -> has_nan xs \/ has_nan ys -> f_nsga_weak xs ys = false.
Proof.
  induction xs as [|x xs IH]; intros [|y ys] L H; try discriminate.
  - exfalso. destruct H as [(z & [] & _)|(z & [] & _)].
  - cbn [f_nsga_weak]. destruct (stands_for x) eqn:Ex; [destruct (stands_for y) eqn:Ey|].
    + apply andb_false_iff. right. apply IH; [cbn in L; lia|].
      destruct H as [(z & [<-|Hz] & Hn)|(z & [<-|Hz] & Hn)]; try congruence; [left|right]; exists z; auto.
    + destruct (leb_nan x y (or_intror Ey)) as [-> _]. reflexivity.
    + destruct (leb_nan x y (or_introl Ex)) as [-> _]. reflexivity.
Qed.

Lemma omopso_values xs ys a b : values xs a -> values ys b -> length xs = length ys -> forall one,
  exists r, f_omopso_loop one xs ys = Some r /\ (r = true <-> Forall2 ext_le a b /\ (one = true \/ ~ Forall2 ext_le b a)).
Proof.
  intros Hx. revert ys b. induction Hx as [|x v xs a E _ IH]; intros ys b Hy L one; destruct Hy as [|y w ys b E' Hy]; try discriminate; cbn [f_omopso_loop].
  - exists one. split; [reflexivity|]. split; [intros ->; split; [constructor|auto]|]. intros [_ [H|H]]; [exact H|exfalso; apply H; constructor].
  - assert (C : forall u l w0 l', Forall2 ext_le (u :: l) (w0 :: l') <-> ext_le u w0 /\ Forall2 ext_le l l').
    { intros. split; [intro F; inversion F; auto|intros [F1 F2]; constructor; auto]. }
    pose proof (ltb_iff x y v w E E') as T1. pose proof (ltb_iff y x w v E' E) as T2. setoid_rewrite C.
    specialize (IH ys b Hy ltac:(cbn in L; lia)).
    destruct (Bltb y x).
    + exists false. split; [reflexivity|]. assert (~ ext_le v w) by now apply T2. split; [discriminate|tauto].
    + assert (V : ext_le v w) by (destruct (ext_dec v w) as [|N]; [assumption|apply T2 in N; discriminate]).
      destruct (Bltb x y).
      * assert (~ ext_le w v) by now apply T1. destruct (IH true) as (r & Er & Hr). exists r. split; [exact Er|]. rewrite Hr. tauto.
      * assert (W : ext_le w v) by (destruct (ext_dec w v) as [|N]; [assumption|apply T1 in N; discriminate]).
        destruct (IH one) as (r & Er & Hr). exists r. split; [exact Er|]. rewrite Hr. tauto.
Qed.

(** A vector with a nan is never removed. *)
Lemma filter_step_keeps not_dominated ind v : length v = length ind -> has_nan v -> In v (ind :: not_dominated) ->
  Forall (fun w => length w = length ind) not_dominated -> In v (f_filter_step not_dominated ind).
Proof.
  intros Lv Hn Hin HL. unfold f_filter_step.
  assert (V : forall l a, values l a -> ~ has_nan l).
  { intros l a F (z & Hz & Hnn). induction F as [|x w l a E _ IH]; [destruct Hz|]. destruct Hz as [<-|Hz]; [congruence|auto]. }
  assert (ND : forall w, length w = length v -> f_dominates w v = false).
  { intros w Lw. apply not_true_is_false. intro H. apply dominates_values in H; [|exact Lw]. destruct H as (a & b & _ & Hb & _). exact (V _ _ Hb Hn). }
  assert (G : forall l kept dom, Forall (fun w => length w = length ind) l ->
    let '(k, d) := fold_left (fun '(kept, dom) nd_ind =>
         ((if negb (f_dominates ind nd_ind) then kept ++ [nd_ind] else kept), (if f_dominates nd_ind ind then true else dom))) l (kept, dom) in
    (In v kept \/ In v l -> In v k) /\ (v = ind -> d = dom)).
  { induction l as [|w l IH]; intros kept dom HF; cbn [fold_left].
    - split; [intros [H|[]]; exact H|reflexivity].
    - inversion HF as [|? ? Lw HF']; subst.
      specialize (IH (if negb (f_dominates ind w) then kept ++ [w] else kept) (if f_dominates w ind then true else dom) HF').
      destruct (fold_left _ l _) as [k d]. destruct IH as [I1 I2]. split.
      + intros [H|[<-|H]]; apply I1; [left; destruct (negb _); [apply in_or_app; auto|exact H]|left|auto].
        rewrite (ND ind) by lia. cbn [negb]. apply in_or_app. right. now left.
      + intros E. rewrite (I2 E), <- E. rewrite (ND w) by (rewrite E; lia). reflexivity. }
  specialize (G not_dominated [] false HL). destruct (fold_left _ not_dominated _) as [k d]. destruct G as [G1 G2].
  destruct Hin as [E|Hin].
  - rewrite (G2 (eq_sym E)). cbn [negb]. apply in_or_app. right. now left.
  - destruct (negb d); [apply in_or_app; left|]; apply G1; auto.
Qed.

Lemma filter_step_incl not_dominated ind : incl (f_filter_step not_dominated ind) (ind :: not_dominated).
Proof.
  unfold f_filter_step. intros v.
  assert (G : forall l kept dom, let '(k, _) := fold_left (fun '(kept, dom) nd_ind =>
         ((if negb (f_dominates ind nd_ind) then kept ++ [nd_ind] else kept), (if f_dominates nd_ind ind then true else dom))) l (kept, dom) in
     In v k -> In v kept \/ In v l).
  { induction l as [|w l IH]; intros kept dom; cbn [fold_left]; [auto|].
    specialize (IH (if negb (f_dominates ind w) then kept ++ [w] else kept) (if f_dominates w ind then true else dom)).
    destruct (fold_left _ l _) as [k d]. intro H. destruct (IH H) as [H'|H']; [|right; now right].
    destruct (negb _); [|auto]. apply in_app_or in H'. destruct H' as [H'|[<-|[]]]; [auto|right; now left]. }
  specialize (G not_dominated [] false). destruct (fold_left _ not_dominated _) as [k d]. intro H.
  destruct (negb d); [apply in_app_or in H; destruct H as [H|[<-|[]]]; [|now left]|]; destruct (G H) as [[]|H']; now right.
Qed.

Lemma filter_keeps_nan d l v : Forall (fun w => length w = d) l -> In v l -> has_nan v -> In v (f_filter_not_dominated l).
Proof.
  intros HL Hin Hn. unfold f_filter_not_dominated.
  assert (Lv : length v = d) by (rewrite Forall_forall in HL; auto).
  assert (G : forall l acc, Forall (fun w => length w = d) l -> Forall (fun w => length w = d) acc -> In v acc \/ In v l -> In v (fold_left f_filter_step l acc)).
  { clear -Hn Lv. induction l as [|w l IH]; intros acc HL HA H; cbn [fold_left]; [destruct H as [H|[]]; exact H|].
    inversion HL as [|? ? Lw HL']; subst. apply IH; [exact HL'| |].
    - apply Forall_forall. intros z Hz. apply filter_step_incl in Hz. destruct Hz as [<-|Hz]; [exact Lw|rewrite Forall_forall in HA; auto].
    - destruct H as [H|[H|H]]; [left|left|right; exact H].
      + apply filter_step_keeps; [lia|exact Hn|now right|]. eapply Forall_impl; [|exact HA]. cbn. intros; lia.
      + apply filter_step_keeps; [lia|exact Hn|now left|]. eapply Forall_impl; [|exact HA]. cbn. intros; lia. }
  apply G; auto.
Qed.

(** The strict order on doubles, nan included. *)
Lemma dominates_irr xs : f_dominates xs xs = false.
Proof.
  apply not_true_is_false. intro H. apply dominates_values in H; [|reflexivity]. destruct H as (a & b & Ha & Hb & [H1 H2]).
  rewrite (values_fun _ _ _ Ha Hb) in *. contradiction.
Qed.
Lemma dominates_trans xs ys zs : length xs = length ys -> length ys = length zs ->
  f_dominates xs ys = true -> f_dominates ys zs = true -> f_dominates xs zs = true.
Proof.
  intros L1 L2 H1 H2. apply dominates_values in H1; [|exact L1]. apply dominates_values in H2; [|exact L2].
  destruct H1 as (a & b & Ha & Hb & D1). destruct H2 as (b' & c & Hb' & Hc & D2). rewrite (values_fun _ _ _ Hb' Hb) in D2.
  apply dominates_values; [congruence|]. exists a, c. split; [exact Ha|]. split; [exact Hc|]. eapply ext_dom_trans; eassumption.
Qed.

Lemma nsga_same xs ys : length xs = length ys -> f_nsga_dominates xs ys = f_dominates xs ys.
Proof.
  intro L. apply eq_true_iff_eq. rewrite (dominates_values xs ys L). unfold f_nsga_dominates.
  assert (D : forall l, (exists a, values l a) \/ has_nan l).
  { induction l as [|x l IH]; [left; exists []; constructor|]. destruct (stands_for x) eqn:E.
    - destruct IH as [[a Ha]|(z & Hz & Hn)]; [left; exists (e :: a); constructor; assumption|right; exists z; split; [now right|exact Hn]].
    - right. exists x. split; [now left|exact E]. }
  assert (V : forall l a, values l a -> ~ has_nan l).
  { intros l a F (z & Hz & Hn). induction F as [|x v l a E _ IH]; [destruct Hz|]. destruct Hz as [<-|Hz]; [congruence|auto]. }
  destruct (D xs) as [[a Ha]|N]; [destruct (D ys) as [[b Hb]|N]|].
  - rewrite andb_true_iff, negb_true_iff, <- not_true_iff_false, (nsga_weak_values xs ys a b Ha Hb L), (nsga_weak_values ys xs b a Hb Ha (eq_sym L)).
    split; [intro H; exists a, b; auto|]. intros (a' & b' & Ha' & Hb' & H). rewrite (values_fun _ _ _ Ha Ha'), (values_fun _ _ _ Hb Hb'). exact H.
  - rewrite (nsga_weak_nan xs ys) by auto. cbn. split; [discriminate|]. intros (a' & b' & _ & Hb' & _). destruct (V _ _ Hb' N).
  - rewrite (nsga_weak_nan xs ys) by auto. cbn. split; [discriminate|]. intros (a' & b' & Ha' & _ & _). destruct (V _ _ Ha' N).
Qed.

Lemma filter_step_in nd ind v : In v (f_filter_step nd ind) <->
  (In v nd /\ f_dominates ind v = false) \/ (v = ind /\ forall w, In w nd -> f_dominates w ind = false).
Proof.
  unfold f_filter_step.
  assert (G : forall l kept dom, let '(k, d) := fold_left (fun '(kept, dom) nd_ind =>
         ((if negb (f_dominates ind nd_ind) then kept ++ [nd_ind] else kept), (if f_dominates nd_ind ind then true else dom))) l (kept, dom) in
     (In v k <-> In v kept \/ (In v l /\ f_dominates ind v = false)) /\ (d = false <-> dom = false /\ forall w, In w l -> f_dominates w ind = false)).
  { induction l as [|w l IH]; intros kept dom; cbn [fold_left].
    - split; [cbn; tauto|]. split; [intros ->; split; [reflexivity|intros w []]|tauto].
    - specialize (IH (if negb (f_dominates ind w) then kept ++ [w] else kept) (if f_dominates w ind then true else dom)).
      destruct (fold_left _ l _) as [k d]. destruct IH as [I1 I2]. rewrite I1, I2. cbn [In]. split.
      + destruct (f_dominates ind w) eqn:E; cbn [negb].
        * split; [tauto|]. intros [H|[[<-|H] H']]; [auto|congruence|auto].
        * rewrite in_app_iff. cbn [In]. split; [intros [[H|[<-|[]]]|H]; tauto|]. intros [H|[[<-|H] H']]; auto.
      + destruct (f_dominates w ind) eqn:E.
        * split; [intros [H _]; discriminate|]. intros [_ H]. specialize (H w (or_introl eq_refl)). congruence.
        * split; intros [H H']; split; auto. intros u [<-|Hu]; auto. }
  specialize (G nd [] false). destruct (fold_left _ nd _) as [k d]. destruct G as [G1 G2].
  assert (G1' : In v k <-> In v nd /\ f_dominates ind v = false) by (rewrite G1; cbn; tauto).
  destruct d; cbn [negb].
  - rewrite G1'. split; [auto|]. intros [H|[_ H]]; [exact H|]. assert (true = false) by (apply G2; auto). discriminate.
  - rewrite in_app_iff, G1'. cbn [In]. split; [intros [H|[<-|[]]]; [auto|right; split; [reflexivity|apply G2; reflexivity]]|].
    intros [H|[-> _]]; auto.
Qed.

Lemma filter_spec d l : Forall (fun w => length w = d) l -> forall v,
  In v (f_filter_not_dominated l) <-> In v l /\ forall w, In w l -> f_dominates w v = false.
Proof.
  unfold f_filter_not_dominated.
  assert (G : forall l p acc, Forall (fun w => length w = d) (p ++ l) ->
     (forall v, In v acc -> In v p /\ forall w, In w p -> f_dominates w v = false) ->
     (forall v, In v p -> In v acc \/ exists w, In w acc /\ f_dominates w v = true) ->
     (forall v, In v (fold_left f_filter_step l acc) -> In v (p ++ l) /\ forall w, In w (p ++ l) -> f_dominates w v = false) /\
     (forall v, In v (p ++ l) -> In v (fold_left f_filter_step l acc) \/ exists w, In w (fold_left f_filter_step l acc) /\ f_dominates w v = true)).
  { clear l. induction l as [|ind l IH]; intros p acc HL I1 I2; cbn [fold_left]; [rewrite app_nil_r; auto|].
    assert (HL' : forall w, In w p -> length w = d) by (intros w Hw; rewrite Forall_forall in HL; apply HL, in_or_app; auto).
    assert (Li : length ind = d) by (rewrite Forall_forall in HL; apply HL, in_or_app; right; now left).
    assert (LA : forall w, In w acc -> length w = d) by (intros w Hw; apply HL', I1, Hw).
    replace (p ++ ind :: l) with ((p ++ [ind]) ++ l) in * by (rewrite <- app_assoc; reflexivity).
    apply IH; [exact HL| |].
    - intros v Hv. apply filter_step_in in Hv. destruct Hv as [[Hv Hd]|[-> Hd]].
      + destruct (I1 v Hv) as [J1 J2]. split; [apply in_or_app; auto|]. intros w Hw. apply in_app_or in Hw. destruct Hw as [Hw|[<-|[]]]; auto.
      + split; [apply in_or_app; right; now left|]. intros w Hw. apply in_app_or in Hw. destruct Hw as [Hw|[<-|[]]]; [|apply dominates_irr].
        destruct (I2 w Hw) as [K|(u & Hu & Hd')]; [auto|]. apply not_true_is_false. intro D.
        assert (f_dominates u ind = true) by (eapply (dominates_trans u w ind); eauto; [rewrite (LA u Hu), (HL' w Hw)|rewrite (HL' w Hw), Li]; reflexivity).
        rewrite (Hd u Hu) in H. discriminate.
    - assert (KI : In ind (f_filter_step acc ind) \/ exists w, In w (f_filter_step acc ind) /\ f_dominates w ind = true).
      { destruct (existsb (fun w => f_dominates w ind) acc) eqn:E.
        - apply existsb_exists in E. destruct E as (w & Hw & D). right. exists w. split; [|exact D]. apply filter_step_in. left. split; [exact Hw|].
          apply not_true_is_false. intro D'. assert (X : f_dominates w w = true) by (eapply (dominates_trans w ind w); eauto; rewrite (LA w Hw), Li; reflexivity).
          rewrite dominates_irr in X. discriminate.
        - left. apply filter_step_in. right. split; [reflexivity|]. intros w Hw. apply not_true_is_false. intro D.
          assert (X : existsb (fun w => f_dominates w ind) acc = true) by (apply existsb_exists; eauto). congruence. }
      assert (KD : forall v, length v = d -> f_dominates ind v = true -> exists w, In w (f_filter_step acc ind) /\ f_dominates w v = true).
      { intros v Lv D. destruct KI as [K|(w & Hw & Dw)]; [exists ind; auto|]. exists w. split; [exact Hw|].
        eapply (dominates_trans w ind v); eauto; [|congruence]. apply filter_step_in in Hw. destruct Hw as [[Hw _]|[-> _]]; [rewrite (LA w Hw); auto|reflexivity]. }
      intros v Hv. apply in_app_or in Hv. destruct Hv as [Hv|[<-|[]]]; [|exact KI].
      destruct (I2 v Hv) as [K|(u & Hu & Du)].
      + destruct (f_dominates ind v) eqn:D; [right; auto|]. left. apply filter_step_in. auto.
      + right. destruct (f_dominates ind u) eqn:D.
        * apply KD; [auto|]. eapply (dominates_trans ind u v); eauto; [rewrite Li, (LA u Hu)|rewrite (LA u Hu), (HL' v Hv)]; reflexivity.
        * exists u. split; [|exact Du]. apply filter_step_in. auto. }
  intros HL v. destruct (G l [] []) as [G1 G2]; [exact HL|intros ? []|intros ? []|]. cbn [app] in G1, G2. split; [apply G1|].
  intros [Hv Hd]. destruct (G2 v Hv) as [K|(w & Hw & D)]; [exact K|]. destruct (G1 w Hw) as [Hw' _]. rewrite (Hd w Hw') in D. discriminate.
Qed.
