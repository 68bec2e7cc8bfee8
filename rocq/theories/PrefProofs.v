(** Proofs for C152. *)
From Coq Require Import Reals QArith Qreals String Lra.
From Verif Require Import Spec Base DomModel DomProofs MetModel MetSpec MetProofs HvModel HvSpec HvExact PrefModel PrefSpec.
From Coq Require Import List Lia.
Local Open Scope Z_scope.

Local Notation idv := (fun v : vec => v).
Local Notation nd l := (filter_not_dominated (fun v : vec => v) l).

(** ** The best of a list *)

Lemma best_spec larger l x : best larger l = Some x ->
  In x l /\ forall y, In y l -> if larger then (snd y <= snd x)%R else (snd x <= snd y)%R.
Proof.
  destruct l as [|z l]; [discriminate|]. cbn [best]. intros E. injection E as <-. revert z.
  induction l as [|y l IH]; intros z.
  - cbn. split; [left; reflexivity|]. intros y [<-|[]]. destruct larger; lra.
  - cbn [fold_left]. destruct (Rlt_dec (snd (if larger then z else y)) (snd (if larger then y else z))) as [H|H].
    + destruct (IH y) as [I1 I2]. split.
      * destruct I1 as [I1|I1]; [right; left; exact I1 | right; right; exact I1].
      * intros w [<-|[<-|Hw]].
        -- specialize (I2 y (or_introl eq_refl)). destruct larger; lra.
        -- apply I2. left. reflexivity.
        -- apply I2. right. exact Hw.
    + destruct (IH z) as [I1 I2]. split.
      * destruct I1 as [I1|I1]; [left; exact I1 | right; right; exact I1].
      * intros w [<-|[<-|Hw]].
        -- apply I2. left. reflexivity.
        -- specialize (I2 z (or_introl eq_refl)). destruct larger; lra.
        -- apply I2. right. exact Hw.
Qed.

Lemma comprehension_In {A B} (f : A -> option B) l r : comprehension f l = Some r ->
  (forall y, In y r -> exists x, In x l /\ f x = Some y) /\ (forall x, In x l -> exists y, In y r /\ f x = Some y).
Proof.
  revert r. induction l as [|x l IH]; intros r E; cbn in E.
  - injection E as <-. split; intros ? [].
  - destruct (f x) as [y|] eqn:Ef; [|discriminate]. destruct (comprehension f l) as [r'|]; [|discriminate].
    injection E as <-. destruct (IH r' eq_refl) as [I1 I2]. split.
    + intros z [<-|Hz]; [exists x; split; [left; reflexivity | exact Ef]|].
      destruct (I1 z Hz) as (w & Hw & Ew). exists w. split; [right; exact Hw | exact Ew].
    + intros z [<-|Hz]; [exists y; split; [left; reflexivity | exact Ef]|].
      destruct (I2 z Hz) as (w & Hw & Ew). exists w. split; [right; exact Hw | exact Ew].
Qed.

Lemma winner_spec neg unit eps pareto m results w v :
  winner neg unit eps pareto m results = Some (w, v) ->
  (exists B, In (w, B) results /\ score neg unit eps pareto (map snd results) m B = Some v) /\
  (forall a A, In (a, A) results -> exists u, score neg unit eps pareto (map snd results) m A = Some u /\ as_good m v u).
Proof.
  unfold winner. destruct (scoring neg unit eps pareto m results) as [l|] eqn:E; [|discriminate]. intros Hb.
  apply comprehension_In in E. destruct E as [E1 E2]. apply best_spec in Hb. destruct Hb as [B1 B2]. split.
  - destruct (E1 _ B1) as ([a B] & HB & EB).
    destruct (score neg unit eps pareto (map snd results) m B) as [u|] eqn:Es; [|discriminate].
    injection EB as <- <-. exists B. auto.
  - intros a A HA. destruct (E2 _ HA) as ([a' u] & Hu & EA).
    destruct (score neg unit eps pareto (map snd results) m A) as [u'|]; [|discriminate].
    injection EA as <- <-. exists u'. split; [reflexivity|]. specialize (B2 _ Hu). cbn in B2.
    destruct m; exact B2.
Qed.

(** ** Covering and the non-dominated members *)

Lemma nd_below d A a : all_dim d idv A -> In a A -> exists a', In a' (nd A) /\ no_worse a' a.
Proof.
  intros Hd Ha. rewrite (filter_not_dominated_prefix idv d A Hd).
  destruct (nd_in idv A a) eqn:E.
  - exists a. split; [apply filter_In; auto | apply no_worse_refl].
  - destruct (dominated_by_nd idv d A a Hd (Hd a Ha) E) as (y & Hy & Hn & Hdom).
    exists y. split; [apply filter_In; auto|].
    apply dominates_spec in Hdom; [apply Hdom|]. rewrite (Hd y Hy), (Hd a Ha). reflexivity.
Qed.

Lemma nd_incl d A a : all_dim d idv A -> In a (nd A) -> In a A.
Proof. intros Hd Ha. rewrite (filter_not_dominated_prefix idv d A Hd) in Ha. apply filter_In in Ha. tauto. Qed.

Lemma covers_nd d A B : all_dim d idv A -> all_dim d idv B -> covers A B -> covers (nd A) (nd B).
Proof.
  intros HA HB H b Hb. destruct (H b (nd_incl d B b HB Hb)) as (a & Ha & Hab).
  destruct (nd_below d A a HA Ha) as (a' & Ha' & Hle). exists a'. split; [exact Ha'|].
  apply no_worse_trans with a; assumption.
Qed.

(** ** Hypervolume *)

Lemma hv_value neg unit d pareto A : (1 <= d <= 3)%nat -> (exists p0 ps, pareto = p0 :: ps /\ length p0 = d) ->
  all_dim d idv A -> (d = 3%nat -> forall p x, In p A -> In x p -> neg <= x - 50 * unit) ->
  exists v, m_hypervolume neg unit A (nd A) pareto = Some v /\ is_hypervolume (repeat (50 * unit) d) (nd A) v.
Proof.
  intros Hd (p0 & ps & -> & Hp0) HA Hn. cbn [m_hypervolume]. rewrite Hp0.
  apply exact_low; rewrite ?repeat_length.
  - lia.
  - intros p Hp. apply HA. apply (nd_incl d A p HA Hp).
  - intros E p Hp. apply (nd_incl d A p HA) in Hp. specialize (Hn E p). specialize (HA p Hp). cbn in HA.
    assert (Hx : forall x, In x p -> neg <= x - 50 * unit) by (intros x Hx; apply Hn; assumption).
    clear - HA Hx. revert d HA. induction p as [|x p IH]; intros d HA; cbn in HA; subst d; cbn; constructor.
    + apply Hx. left. reflexivity.
    + apply IH; [intros y Hy; apply Hx; right; exact Hy | reflexivity].
Qed.

Lemma hv_strict ref f f' v v' : is_hypervolume ref f v -> is_hypervolume ref f' v' ->
  (forall p, In p f -> exists q, In q f' /\ Forall2 Z.le q p) ->
  (exists q, In q f' /\ Forall2 Z.lt q ref /\ forall p, In p f -> ~ Forall2 Z.le p q) ->
  v < v'.
Proof.
  intros (l & Hnd & Hin & ->) (l' & Hnd' & Hin' & ->) H (q & Hq & Hlt & Hno).
  assert (Hql' : In q l').
  { apply Hin'. split; [exact Hlt|]. exists q. split; [exact Hq|]. clear. induction q; constructor; auto; lia. }
  assert (Hql : ~ In q l).
  { intros Hc. apply Hin in Hc. destruct Hc as (_ & p & Hp & Hle). exact (Hno p Hp Hle). }
  apply inj_lt. change (length (q :: l) <= length l')%nat.
  apply NoDup_incl_length; [constructor; assumption|].
  intros z [<-|Hz]; [exact Hql'|]. apply Hin in Hz. apply Hin'.
  destruct Hz as (Hzlt & p & Hp & Hle). split; [exact Hzlt|]. destruct (H p Hp) as (r & Hr & Hrp).
  exists r. split; [exact Hr|]. exact (no_worse_trans r p z Hrp Hle).
Qed.

Lemma forall2_repeat_lt (q : vec) c d : length q = d -> (forall x, In x q -> x < c) -> Forall2 Z.lt q (repeat c d).
Proof.
  intros <-. induction q as [|x q IH]; intros H; cbn; constructor.
  - apply H. left. reflexivity.
  - apply IH. intros y Hy. apply H. right. exact Hy.
Qed.

Lemma le_dec (a b : vec) : length a = length b -> {no_worse a b} + {~ no_worse a b}.
Proof.
  revert b. induction a as [|x a IH]; intros [|y b] E; try discriminate.
  - left. constructor.
  - destruct (Z_le_gt_dec x y) as [H|H].
    + destruct (IH b) as [I|I]; [injection E; auto | left; constructor; assumption | right; intros C; inversion C; auto].
    + right. intros C. inversion C. lia.
Qed.

Lemma not_covers d A B : all_dim d idv A -> all_dim d idv B -> ~ covers B A ->
  exists a, In a A /\ forall b, In b B -> ~ no_worse b a.
Proof.
  intros HA HB. induction A as [|a A IH]; intros H.
  - destruct H. intros b [].
  - assert (HA' : all_dim d idv A) by (intros x Hx; apply HA; right; exact Hx).
    assert (Hd : {exists b, In b B /\ no_worse b a} + {forall b, In b B -> ~ no_worse b a}).
    { clear - HA HB. induction B as [|b B IHB]; [right; intros ? []|].
      destruct (le_dec b a) as [L|L].
      - rewrite (HB b (or_introl eq_refl)). symmetry. apply HA. left. reflexivity.
      - left. exists b. split; [left; reflexivity | exact L].
      - destruct IHB as [E|E].
        + intros x Hx. apply HB. right. exact Hx.
        + left. destruct E as (b' & Hb' & Hle). exists b'. split; [right; exact Hb' | exact Hle].
        + right. intros b' [<-|Hb']; [exact L | apply E, Hb']. }
    destruct Hd as [Hd|Hd].
    + destruct (IH HA') as (x & Hx & Hn).
      * intros C. apply H. intros b [<-|Hb]; [exact Hd | apply C, Hb].
      * exists x. split; [right; exact Hx | exact Hn].
    + exists a. split; [left; reflexivity | exact Hd].
Qed.

Lemma hv_outperforms neg unit d pareto A B a b : (1 <= d <= 3)%nat ->
  (exists p0 ps, pareto = p0 :: ps /\ length p0 = d) -> all_dim d idv A -> all_dim d idv B ->
  (d = 3%nat -> forall p x, In p A \/ In p B -> In x p -> neg <= x - 50 * unit) ->
  m_hypervolume neg unit A (nd A) pareto = Some a -> m_hypervolume neg unit B (nd B) pareto = Some b ->
  (covers A B -> b <= a) /\
  (outperforms A B -> (forall p x, In p A -> In x p -> x < 50 * unit) -> b < a).
Proof.
  intros Hd Hp HA HB Hn Ea Eb.
  destruct (hv_value neg unit d pareto A Hd Hp HA) as (a' & Ea' & Va); [intros E p x Hpx; apply Hn; auto|].
  destruct (hv_value neg unit d pareto B Hd Hp HB) as (b' & Eb' & Vb); [intros E p x Hpx; apply Hn; auto|].
  rewrite Ea in Ea'. injection Ea' as <-. rewrite Eb in Eb'. injection Eb' as <-. split.
  - intros H. apply (hv_mono _ _ _ _ _ Vb Va). exact (covers_nd d A B HA HB H).
  - intros [H Hno] Hlt. apply (hv_strict _ _ _ _ _ Vb Va (covers_nd d A B HA HB H)).
    destruct (not_covers d A B HA HB Hno) as (x & Hx & Hxb).
    destruct (nd_below d A x HA Hx) as (q & Hq & Hqx). exists q. split; [exact Hq|]. split.
    + apply forall2_repeat_lt; [apply HA, (nd_incl d A q HA Hq)|].
      intros y Hy. exact (Hlt q y (nd_incl d A q HA Hq) Hy).
    + intros p Hp0 Hle. apply (Hxb p (nd_incl d B p HB Hp0)). exact (no_worse_trans p q x Hle Hqx).
Qed.

(** ** The dominance indicator *)

Lemma better_or_eq (a b : vec) : no_worse a b -> a = b \/ pareto_dom a b.
Proof.
  intros H. assert (C : a = b \/ better_somewhere a b).
  { induction H as [|x y a b Hxy H IH]; [left; reflexivity|].
    destruct (Z_lt_le_dec x y) as [L|L].
    - right. exists 0%nat, x, y. auto.
    - assert (x = y) by lia. subst y. destruct IH as [->|(i & u & v & Hu & Hv & Huv)]; [left; reflexivity|].
      right. exists (S i), u, v. auto. }
  destruct C; [left | right; split]; assumption.
Qed.

Lemma frac_le a b c : (Z.of_nat a # Pos.of_nat c <= Z.of_nat b # Pos.of_nat c)%Q <-> (a <= b)%nat.
Proof. unfold Qle. cbn [Qnum Qden]. nia. Qed.

Lemma pdi_covers d sols A B qa qb : all_dim d idv (concat sols) -> In A sols -> In B sols -> NoDup B -> covers A B ->
  pdi_of_result A sols = Some qa -> pdi_of_result B sols = Some qb -> (qb <= qa)%Q.
Proof.
  intros Hd HA HB Hnd Hc Ea Eb.
  assert (IA : incl A (concat sols)) by (intros v Hv; apply in_concat; eauto).
  assert (IB : incl B (concat sols)) by (intros v Hv; apply in_concat; eauto).
  assert (DA : all_dim d idv A) by (intros v Hv; apply Hd, IA, Hv).
  assert (DB : all_dim d idv B) by (intros v Hv; apply Hd, IB, Hv).
  pose proof (fun v => common_front_In d sols v Hd) as Hf.
  unfold pdi_of_result, pareto_dominance_indicator in Ea, Eb.
  destruct (common_front sols) as [|c0 cs] eqn:Ec; [discriminate|]. rewrite <- Ec in *.
  injection Ea as <-. injection Eb as <-. apply frac_le. apply NoDup_incl_length.
  - apply NoDup_filter. rewrite (filter_not_dominated_prefix idv d B DB). apply NoDup_filter, Hnd.
  - intros v Hv. apply filter_In in Hv. destruct Hv as [Hv Hin]. apply filter_In. split; [|exact Hin].
    apply vec_in_In, Hf in Hin. destruct Hin as [Hvc Hvn].
    destruct (Hc v (nd_incl d B v DB Hv)) as (a & Ha & Hle).
    destruct (better_or_eq a v Hle) as [->|Hdom]; [|destruct (Hvn a (IA a Ha) Hdom)].
    pose proof (filter_not_dominated_members _ idv d A DA) as [Hm _]. apply Hm. split; [exact Ha|].
    intros y Hy. apply Hvn, IA, Hy.
Qed.

(** ** Distances *)

Lemma nearest_mono A B f x y : incl B A -> nearest A f x -> nearest B f y -> x <= y.
Proof. intros H [_ Hx] [(t & Ht & Hs) _]. apply (Hx t); auto. Qed.

Lemma total_mono xs ys : Forall2 Z.le xs ys -> total xs <= total ys.
Proof. unfold total. induction 1; cbn [fold_right]; lia. Qed.

Lemma igd_superset A B P a b : B <> [] -> P <> [] -> incl B A ->
  (forall p s, In p P -> In s A -> length p = length s) ->
  inverse_generational_distance A P = Some a -> inverse_generational_distance B P = Some b -> (a <= b)%R.
Proof.
  intros HB HP Hi Hl Ea Eb. unfold inverse_generational_distance in *.
  assert (HA : A <> []) by (destruct B as [|x B]; [congruence|]; intros ->; apply (Hi x); left; reflexivity).
  destruct (distance_spec P A HP HA Hl) as (da & Fa & Da).
  destruct (distance_spec P B HP HB) as (db & Fb & Db); [intros p s Hp Hs; apply Hl; auto|].
  rewrite Ea in Da. injection Da as ->. rewrite Eb in Db. injection Db as ->.
  apply sqrt_le_1_alt. apply Rmult_le_compat_r.
  - apply Rlt_le, Rinv_0_lt_compat. apply lt_0_INR. destruct P; [congruence | cbn; lia].
  - apply IZR_le, total_mono. clear - Fa Fb Hi. revert db Fb. induction Fa as [|p x P da Hx Fa IH]; intros db Fb.
    + inversion Fb. constructor.
    + inversion Fb as [|? y ? db' Hy Fb']; subst. constructor; [|apply IH, Fb'].
      exact (nearest_mono A B p x y Hi Hx Hy).
Qed.

Lemma gd_zero_wins A B P a b : P <> [] -> A <> [] ->
  (forall s p, In s A -> In p P -> length s = length p) -> (forall s, In s A -> In s P) ->
  generational_distance A P = Some a -> generational_distance B P = Some b -> a = 0%R /\ (a <= b)%R.
Proof.
  intros HP HA Hl Hin Ea Eb. destruct (distance_zero A P a HA HP Hl Ea) as [_ H].
  assert (a = 0%R) as -> by (apply H; exact Hin). split; [reflexivity|].
  unfold generational_distance, distance in Eb.
  destruct (comprehension _ B) as [ds|]; [|discriminate]. destruct ds; [discriminate|]. injection Eb as <-. apply sqrt_pos.
Qed.
