(** Lemmas about the benchmark problems. *)
From Coq Require Import Reals List Lra Lia Psatz.
From Verif Require Import ProbModel ProbSpec.
Import ListNotations.
Local Open Scope R_scope.

(** ** Partial operations *)

Lemma bind_some A B (e : option A) (k : A -> option B) v :
  e = Some v -> bind e k = k v.
Proof. now intros ->. Qed.

Lemma sqrt_ok x : 0 <= x -> py_sqrt x = Some (sqrt x).
Proof. intros H. unfold py_sqrt. destruct (Rle_dec 0 x); [reflexivity|contradiction]. Qed.

Lemma div_ok x y : y <> 0 -> py_div x y = Some (x / y).
Proof. intros H. unfold py_div. destruct (Req_EM_T y 0); [contradiction|reflexivity]. Qed.

Definition rpow (x y : R) : R := if Req_EM_T x 0 then 0 else Rpower x y.

Lemma pow_ok x y : 0 <= x -> 0 < y -> py_pow x y = Some (rpow x y).
Proof.
  intros Hx Hy. unfold py_pow, rpow.
  destruct (Rlt_dec x 0); [lra|].
  destruct (Req_EM_T x 0); [|reflexivity].
  destruct (Rlt_dec 0 y); [reflexivity|contradiction].
Qed.

Lemma rpow_nonneg x y : 0 <= rpow x y.
Proof. unfold rpow. destruct (Req_EM_T x 0); [lra|]. left. apply exp_pos. Qed.

Lemma rpow_le_1 x y : 0 <= x <= 1 -> 0 <= y -> rpow x y <= 1.
Proof.
  intros Hx Hy. unfold rpow. destruct (Req_EM_T x 0); [lra|].
  unfold Rpower. rewrite <- exp_0.
  assert (L : ln x <= 0).
  { rewrite <- ln_1. destruct (Req_dec x 1) as [->|N]; [lra|].
    left. apply ln_increasing; lra. }
  assert (Q : y * ln x <= 0) by nra.
  destruct Q as [Q|Q]; [left; now apply exp_increasing|rewrite Q; lra].
Qed.

(** ** Sums, products and comprehensions *)

Lemma msum_nonneg A (f : A -> option R) l :
  (forall a, In a l -> exists v, f a = Some v /\ 0 <= v) ->
  exists s, msum f l = Some s /\ 0 <= s.
Proof.
  induction l as [|a r IH]; intros H; cbn.
  - exists 0. split; [reflexivity|lra].
  - destruct (H a (or_introl eq_refl)) as (v & -> & Hv).
    destruct IH as (s & -> & Hs); [intros b Hb; apply H; now right|].
    cbn. exists (v + s). split; [reflexivity|lra].
Qed.

Lemma msum_lower A (f : A -> option R) (c : R) l :
  (forall a, In a l -> exists v, f a = Some v /\ c <= v) ->
  exists s, msum f l = Some s /\ INR (length l) * c <= s.
Proof.
  induction l as [|a r IH]; intros H.
  - cbn. exists 0. split; [reflexivity|lra].
  - cbn [msum]. destruct (H a (or_introl eq_refl)) as (v & -> & Hv).
    destruct IH as (s & -> & Hs); [intros b Hb; apply H; now right|].
    exists (v + s). split; [reflexivity|].
    cbn [length]. rewrite S_INR. lra.
Qed.

Lemma msum_const A (f : A -> option R) c l :
  (forall a, In a l -> f a = Some c) -> msum f l = Some (INR (length l) * c).
Proof.
  induction l as [|a r IH]; intros H.
  - cbn. f_equal. lra.
  - cbn [msum]. rewrite (H a (or_introl eq_refl)), IH by (intros b Hb; apply H; now right).
    cbn [bind length]. rewrite S_INR. f_equal. lra.
Qed.

Lemma msum_zero A (f : A -> option R) l :
  (forall a, In a l -> f a = Some 0) -> msum f l = Some 0.
Proof. intros H. rewrite (msum_const _ _ 0) by exact H. f_equal. lra. Qed.

Lemma msum_defined A (f : A -> option R) l :
  (forall a, In a l -> exists v, f a = Some v) -> exists s, msum f l = Some s.
Proof.
  induction l as [|a r IH]; intros H; cbn.
  - eauto.
  - destruct (H a (or_introl eq_refl)) as (v & ->).
    destruct IH as (s & ->); [intros b Hb; apply H; now right|]. cbn. eauto.
Qed.

Lemma mprod_unit A (f : A -> option R) l :
  l <> [] -> (forall a, In a l -> exists v, f a = Some v /\ -1 <= v <= 1) ->
  exists s, mprod f l = Some s /\ -1 <= s <= 1.
Proof.
  induction l as [|a r IH]; intros N H; [contradiction|].
  destruct (H a (or_introl eq_refl)) as (v & E & Hv).
  destruct r as [|b r].
  - cbn. eauto.
  - cbn [mprod]. rewrite E.
    destruct IH as (s & Es & Hs); [discriminate|intros c Hc; apply H; now right|].
    cbn [mprod] in Es. rewrite Es. cbn [bind]. exists (v * s). split; [reflexivity|nra].
Qed.

Lemma mprod_one A (f : A -> option R) l :
  l <> [] -> (forall a, In a l -> f a = Some 1) -> mprod f l = Some 1.
Proof.
  induction l as [|a r IH]; intros N H; [contradiction|].
  destruct r as [|b r].
  - cbn. apply H. now left.
  - cbn [mprod]. rewrite (H a (or_introl eq_refl)).
    assert (Es : mprod f (b :: r) = Some 1)
      by (apply IH; [discriminate|intros c Hc; apply H; now right]).
    cbn [mprod] in Es. rewrite Es. cbn. f_equal. lra.
Qed.

Lemma mmap_ok A B (f : A -> option B) (g : A -> B) l :
  (forall a, In a l -> f a = Some (g a)) -> mmap f l = Some (map g l).
Proof.
  induction l as [|a r IH]; intros H; cbn; [reflexivity|].
  rewrite (H a (or_introl eq_refl)), IH by (intros b Hb; apply H; now right). reflexivity.
Qed.

Lemma mmap_defined A B (f : A -> option B) l :
  (forall a, In a l -> exists v, f a = Some v) ->
  exists r, mmap f l = Some r /\ length r = length l /\
            forall v, In v r -> exists a, In a l /\ f a = Some v.
Proof.
  induction l as [|a r IH]; intros H; cbn.
  - exists []. repeat split; [intros v []].
  - destruct (H a (or_introl eq_refl)) as (v & E). rewrite E.
    destruct IH as (s & -> & Hl & Hs); [intros b Hb; apply H; now right|].
    cbn. exists (v :: s). split; [reflexivity|]. split; [cbn; now rewrite Hl|].
    intros w [<-|Hw]; [eauto|]. destruct (Hs w Hw) as (b & Hb & Eb). eauto.
Qed.

(** ** Grids *)

Lemma points_in n t : (2 <= n)%nat -> In t (points n) -> 0 <= t <= 1.
Proof.
  intros Hn H. apply in_map_iff in H. destruct H as (i & <- & Hi).
  apply in_seq in Hi.
  assert (P : 0 < INR (n - 1)) by (apply lt_0_INR; lia).
  assert (I0 : 0 <= INR i) by apply pos_INR.
  assert (I1 : INR i <= INR (n - 1)) by (apply le_INR; lia).
  split.
  - apply Rmult_le_pos; [assumption|]. left. now apply Rinv_0_lt_compat.
  - apply (Rmult_le_reg_r (INR (n - 1))); [assumption|].
    unfold Rdiv. rewrite Rmult_assoc, Rinv_l by lra. lra.
Qed.

(** The grid point just above [t]. *)
Lemma points_above n t : (2 <= n)%nat -> 0 <= t <= 1 ->
  exists s, In s (points n) /\ t <= s <= t + 1 / INR (n - 1).
Proof.
  intros Hn Ht.
  assert (P : 0 < INR (n - 1)) by (apply lt_0_INR; lia).
  assert (G : forall k, (k <= n - 1)%nat -> t * INR (n - 1) <= INR k ->
    exists i, (i <= k)%nat /\ t * INR (n - 1) <= INR i <= t * INR (n - 1) + 1).
  { induction k as [|k IH]; intros Hk H.
    - exists 0%nat. split; [lia|]. cbn [INR] in *. split; [assumption|]. nra.
    - destruct (Rle_dec (t * INR (n - 1)) (INR k)) as [L|L].
      + destruct IH as (i & Hi & Hb); [lia|assumption|]. exists i. split; [lia|assumption].
      + exists (S k). split; [lia|]. rewrite S_INR in *. lra. }
  destruct (G (n - 1)%nat) as (i & Hi & Hb1 & Hb2); [lia|nra|].
  exists (INR i / INR (n - 1)). split.
  - apply in_map_iff. exists i. split; [reflexivity|]. apply in_seq. lia.
  - split.
    + apply (Rmult_le_reg_r (INR (n - 1))); [assumption|].
      unfold Rdiv. rewrite Rmult_assoc, Rinv_l by lra. lra.
    + apply (Rmult_le_reg_r (INR (n - 1))); [assumption|].
      rewrite Rmult_plus_distr_r. unfold Rdiv.
      rewrite !Rmult_assoc, Rinv_l by lra. lra.
Qed.

Lemma points_0 n : (1 <= n)%nat -> In 0 (points n).
Proof.
  intros Hn. apply in_map_iff. exists 0%nat. split; [cbn; lra|]. apply in_seq. lia.
Qed.

(** ** Problems whose objectives are a curve plus something non-negative *)

Record curve (P : problem) (p1 p2 : R -> R) : Prop := {
  cv_lower : forall x, admissible P x ->
     exists t f1 f2, nth_error x 0 = Some t /\ 0 <= t <= 1 /\
       evaluates P x [f1; f2] /\ p1 t <= f1 /\ p2 t <= f2;
  cv_reach : forall t, 0 <= t <= 1 -> attainable P [p1 t; p2 t] }.

Lemma evaluates_unique P x f g : evaluates P x f -> evaluates P x g -> f = g.
Proof.
  unfold evaluates. intros -> H. revert g H.
  induction f as [|a f IH]; intros [|b g] H; cbn in H; try discriminate; [reflexivity|].
  injection H as -> H. f_equal. now apply IH.
Qed.

Lemma curve_defined P p1 p2 : curve P p1 p2 -> objectives_defined P.
Proof. intros C x Hx. destruct (cv_lower _ _ _ C x Hx) as (t & f1 & f2 & _ & _ & E & _). eauto. Qed.

Lemma curve_below P p1 p2 f : curve P p1 p2 -> attainable P f ->
  exists t f1 f2, 0 <= t <= 1 /\ f = [f1; f2] /\ p1 t <= f1 /\ p2 t <= f2.
Proof.
  intros C (x & Hx & E). destruct (cv_lower _ _ _ C x Hx) as (t & f1 & f2 & _ & Ht & E' & L).
  exists t, f1, f2. split; [assumption|]. split; [|assumption].
  now apply (evaluates_unique P x).
Qed.

Lemma Forall2_pair (R' : R -> R -> Prop) a b c d :
  Forall2 R' [a; b] [c; d] <-> R' a c /\ R' b d.
Proof.
  split.
  - intros H. inversion H as [|? ? ? ? H1 H2]; subst. inversion H2; subst. tauto.
  - intros [H1 H2]. repeat constructor; assumption.
Qed.

Lemma curve_optimal P p1 p2 fr :
  curve P p1 p2 -> p_front P = Some fr -> fr <> [] ->
  (forall p, In p fr -> exists t, 0 <= t <= 1 /\ p = [p1 t; p2 t] /\
     forall s, 0 <= s <= 1 -> p1 s <= p1 t -> p2 s <= p2 t -> p1 s = p1 t /\ p2 s = p2 t) ->
  front_optimal P.
Proof.
  intros C E N H. exists fr. split; [assumption|]. split; [assumption|].
  intros p Hp. destruct (H p Hp) as (t & Ht & -> & T). split.
  - now apply (cv_reach _ _ _ C).
  - intros f Hf (D & X). destruct (curve_below _ _ _ _ C Hf) as (s & f1 & f2 & Hs & -> & L1 & L2).
    apply Forall2_pair in D. destruct D as [D1 D2].
    destruct (T s Hs) as [T1 T2]; [lra|lra|]. apply X. f_equal; [lra|]. f_equal. lra.
Qed.

Lemma curve_covers P p1 p2 fr eps :
  curve P p1 p2 -> p_front P = Some fr ->
  (forall s, 0 <= s <= 1 -> exists a b, In [a; b] fr /\ a <= p1 s + eps /\ b <= p2 s + eps) ->
  front_covers eps P.
Proof.
  intros C E H. exists fr. split; [assumption|]. intros f Hf.
  destruct (curve_below _ _ _ _ C Hf) as (s & f1 & f2 & Hs & -> & L1 & L2).
  destruct (H s Hs) as (a & b & I & La & Lb). exists [a; b]. split; [assumption|].
  apply Forall2_pair. lra.
Qed.

(** ** Admissible vectors *)

Lemma adm_length P x : admissible P x -> length x = length (p_dims P).
Proof.
  unfold admissible. induction 1 as [|d v ds vs _ _ IH]; cbn; congruence.
Qed.

Lemma adm_get P x i d : admissible P x -> nth_error (p_dims P) i = Some d ->
  exists v, get x i = Some v /\ fst d <= v <= snd d.
Proof.
  unfold admissible. generalize (p_dims P). intros ds H. revert i.
  induction H as [|d' v ds vs Hd _ IH]; intros [|i] E; try discriminate.
  - cbn in E. injection E as <-. cbn. eauto.
  - cbn in *. now apply IH.
Qed.

Lemma adm_tail lo hi n P x :
  p_dims P = (0, 1) :: repeat (lo, hi) n -> admissible P x ->
  exists x0 r, x = x0 :: r /\ 0 <= x0 <= 1 /\ length r = n /\ Forall (fun v => lo <= v <= hi) r.
Proof.
  unfold admissible. intros -> H. inversion H as [|d x0 ds r H0 Hr E1 E2]; subst.
  cbn in H0. exists x0, r. split; [reflexivity|]. split; [assumption|].
  clear H H0. revert r Hr. induction n as [|n IH]; intros r Hr; cbn in Hr; inversion Hr; subst.
  - split; [reflexivity|constructor].
  - destruct (IH _ H3) as [L F]. split; [cbn; now rewrite L|]. now constructor.
Qed.

Lemma adm_make lo hi n P x0 (g : nat -> R) k :
  p_dims P = (0, 1) :: repeat (lo, hi) n -> 0 <= x0 <= 1 ->
  (forall j, (k <= j < k + n)%nat -> lo <= g j <= hi) ->
  admissible P (x0 :: map g (seq k n)).
Proof.
  unfold admissible. intros -> H0 Hg. constructor; [assumption|].
  revert k Hg. induction n as [|n IH]; intros k Hg; cbn; constructor.
  - cbn. apply Hg. lia.
  - apply IH. intros j Hj. apply Hg. lia.
Qed.

Lemma get_map x0 (g : nat -> R) n j :
  (2 <= j < 2 + n)%nat -> get (x0 :: map g (seq 2 n)) (j - 1) = Some (g j).
Proof.
  intros Hj. destruct j as [|[|j]]; [lia|lia|]. unfold get. cbn [nth_error Nat.sub].
  rewrite nth_error_map. rewrite nth_error_nth' with (d := 0%nat) by (rewrite seq_length; lia).
  rewrite seq_nth by lia. reflexivity.
Qed.

Lemma in_odd_j n j : In j (odd_j n) -> (2 <= j <= n)%nat.
Proof. unfold odd_j. intros H. apply filter_In in H. destruct H as [H _]. apply in_seq in H. lia. Qed.

Lemma in_even_j n j : In j (even_j n) -> (2 <= j <= n)%nat.
Proof. unfold even_j. intros H. apply filter_In in H. destruct H as [H _]. apply in_seq in H. lia. Qed.

Lemma sin_in t : -1 <= sin t <= 1.
Proof. apply SIN_bound. Qed.
Lemma cos_in t : -1 <= cos t <= 1.
Proof. apply COS_bound. Qed.
