(** Proofs about the quality metrics. *)
From Verif Require Import Spec Base MetSpec DomModel DomProofs MetModel.
From Coq Require Import Reals QArith Lra.
Local Open Scope Z_scope.

(** ** Sums, minima, comprehensions *)

Lemma py_sum_total l : py_sum l = total l.
Proof.
  unfold py_sum, total. assert (H : forall a, fold_left Z.add l a = a + fold_right Z.add 0 l).
  { induction l as [|x l IH]; intros a; cbn; [lia|]. rewrite IH. lia. }
  rewrite H. lia.
Qed.

Lemma py_min_spec l m : py_min l = Some m -> In m l /\ forall x, In x l -> m <= x.
Proof.
  destruct l as [|x l]; [discriminate|]. cbn. intros H. injection H as <-.
  revert x. induction l as [|y l IH]; intros x; cbn.
  - split; [auto|]. intros z [<-|[]]; lia.
  - destruct (IH (if y <? x then y else x)) as [H1 H2]. split.
    + destruct H1 as [H1|H1]; [|auto]. rewrite <- H1. destruct (y <? x); auto.
    + intros z Hz. assert (Hm : fold_left (fun m0 y0 => if y0 <? m0 then y0 else m0) l (if y <? x then y else x) <= (if y <? x then y else x))
        by (apply H2; left; reflexivity).
      destruct Hz as [<-|[<-|Hz]]; [| |apply H2; right; exact Hz]; destruct (Z.ltb_spec y x); lia.
Qed.

Lemma py_max_spec l m : py_max l = Some m -> In m l /\ forall x, In x l -> x <= m.
Proof.
  destruct l as [|x l]; [discriminate|]. cbn. intros H. injection H as <-.
  revert x. induction l as [|y l IH]; intros x; cbn.
  - split; [auto|]. intros z [<-|[]]; lia.
  - destruct (IH (if x <? y then y else x)) as [H1 H2]. split.
    + destruct H1 as [H1|H1]; [|auto]. rewrite <- H1. destruct (x <? y); auto.
    + intros z Hz. assert (Hm : (if x <? y then y else x) <= fold_left (fun m0 y0 => if m0 <? y0 then y0 else m0) l (if x <? y then y else x))
        by (apply H2; left; reflexivity).
      destruct Hz as [<-|[<-|Hz]]; [| |apply H2; right; exact Hz]; destruct (Z.ltb_spec x y); lia.
Qed.

Lemma py_min_some l : l <> [] -> exists m, py_min l = Some m.
Proof. destruct l; [congruence|]. intros _. cbn. eauto. Qed.
Lemma py_max_some l : l <> [] -> exists m, py_max l = Some m.
Proof. destruct l; [congruence|]. intros _. cbn. eauto. Qed.

Lemma comprehension_spec {A B} (f : A -> option B) l r :
  comprehension f l = Some r <-> Forall2 (fun x y => f x = Some y) l r.
Proof.
  revert r. induction l as [|x l IH]; intros r; cbn.
  - split; [intros H; injection H as <-; constructor | intros H; inversion H; reflexivity].
  - destruct (f x) as [y|] eqn:E.
    + destruct (comprehension f l) as [r'|].
      * split; [intros H; injection H as <-; constructor; [exact E | apply IH; reflexivity]|].
        intros H. inversion H as [|? y' ? r'' E' H']; subst. apply IH in H'. congruence.
      * split; [discriminate|]. intros H. inversion H as [|? y' ? r'' E' H']; subst. apply IH in H'. discriminate.
    + split; [discriminate|]. intros H. inversion H. congruence.
Qed.

Lemma comprehension_total {A B} (f : A -> option B) l :
  (forall x, In x l -> exists y, f x = Some y) -> exists r, comprehension f l = Some r.
Proof.
  induction l as [|x l IH]; intros H; [exists []; reflexivity|]. cbn.
  destruct (H x) as (y & ->); [left; reflexivity|]. destruct IH as (r & ->); [intros; apply H; right; assumption|]. eauto.
Qed.

Lemma Forall2_In_l {A B} (R : A -> B -> Prop) l l' x : Forall2 R l l' -> In x l -> exists y, In y l' /\ R x y.
Proof. induction 1; intros [].  - subst. eexists. split; [left; reflexivity | assumption]. - destruct IHForall2 as (z & ? & ?); auto. exists z. split; [right|]; auto. Qed.
Lemma Forall2_In_r {A B} (R : A -> B -> Prop) l l' y : Forall2 R l l' -> In y l' -> exists x, In x l /\ R x y.
Proof. induction 1; intros [].  - subst. eexists. split; [left; reflexivity | assumption]. - destruct IHForall2 as (z & ? & ?); auto. exists z. split; [right|]; auto. Qed.

(** ** Distances *)

Lemma euclid_sqr_loop_acc acc xs ys : euclid_sqr_loop acc xs ys = acc + euclid_sqr_loop 0 xs ys.
Proof.
  revert acc ys. induction xs as [|x xs IH]; intros acc [|y ys]; cbn [euclid_sqr_loop]; try lia.
  rewrite IH. rewrite (IH (0 + _)). lia.
Qed.

Lemma sq_dist_fun a b s s' : sq_dist a b s -> sq_dist a b s' -> s = s'.
Proof.
  intros H. revert s'. induction H; intros s' H'; inversion H'; subst; [reflexivity|]. f_equal. auto.
Qed.

Lemma euclid_sq_dist a b : length a = length b -> sq_dist a b (euclid_sqr_distance a b).
Proof.
  revert b. induction a as [|x a IH]; intros [|y b] H; try discriminate; [constructor|].
  unfold euclid_sqr_distance. cbn [euclid_sqr_loop]. rewrite euclid_sqr_loop_acc.
  replace (0 + (x - y) ^ 2) with ((x - y) * (x - y)) by lia. constructor. apply IH. cbn in H. lia.
Qed.

Lemma sq_dist_length a b s : sq_dist a b s -> length a = length b.
Proof. induction 1; cbn; congruence. Qed.

Lemma sq_dist_nonneg a b s : sq_dist a b s -> 0 <= s.
Proof. induction 1; [lia|]. pose proof (Z.square_nonneg (x - y)). lia. Qed.

Lemma sq_dist_zero a b s : sq_dist a b s -> (s = 0 <-> a = b).
Proof.
  induction 1; [tauto|]. apply sq_dist_nonneg in H. split.
  - intros E. pose proof (Z.square_nonneg (x - y)). assert (x = y) by (assert ((x - y) * (x - y) = 0) by lia; nia).
    subst. f_equal. apply IHsq_dist. lia.
  - intros E. injection E as -> ->. destruct IHsq_dist as [_ IH]. rewrite IH by reflexivity. lia.
Qed.

Lemma total_nonneg l : (forall x, In x l -> 0 <= x) -> 0 <= total l.
Proof. induction l as [|x l IH]; intros H; cbn; [lia|]. assert (0 <= x) by (apply H; left; reflexivity). assert (0 <= total l) by (apply IH; intros; apply H; right; assumption). unfold total in *. lia. Qed.

Lemma total_zero l : (forall x, In x l -> 0 <= x) -> (total l = 0 <-> forall x, In x l -> x = 0).
Proof.
  induction l as [|x l IH]; intros H; [cbn; split; [intros _ y [] | reflexivity]|].
  assert (Hx : 0 <= x) by (apply H; left; reflexivity).
  assert (Hl : forall y, In y l -> 0 <= y) by (intros; apply H; right; assumption).
  pose proof (total_nonneg l Hl) as Hn. specialize (IH Hl). cbn [total fold_right]. fold (total l).
  split.
  - intros E y [<-|Hy]; [lia|]. apply IH; [lia | exact Hy].
  - intros E. rewrite (E x) by (left; reflexivity). destruct IH as [_ IH]. rewrite IH; [lia|]. intros y Hy. apply E. right. exact Hy.
Qed.

Definition uniform (l l' : list vec) : Prop := forall a b, In a l -> In b l' -> length a = length b.

Lemma Forall2_weaken {A B} (R R' : A -> B -> Prop) l l' :
  Forall2 R l l' -> (forall x y, In x l -> In y l' -> R x y -> R' x y) -> Forall2 R' l l'.
Proof. induction 1; intros H'; constructor; [apply H'; auto using in_eq|]. apply IHForall2. intros; apply H'; auto using in_cons. Qed.

Lemma distance_spec (from to : list vec) : from <> [] -> to <> [] -> uniform from to ->
  exists ds, Forall2 (nearest to) from ds /\ distance from to = Some (sqrt (IZR (total ds) / INR (length from))).
Proof.
  intros Hf Ht Hu. unfold distance.
  destruct (comprehension_total (fun f => py_min (map (euclid_sqr_distance f) to)) from) as (ds & E).
  { intros f _. apply py_min_some. destruct to; [congruence | discriminate]. }
  rewrite E. apply comprehension_spec in E. exists ds. split.
  - eapply Forall2_weaken; [exact E|]. cbn. intros f d Hff _ H. apply py_min_spec in H. destruct H as [H1 H2].
    apply in_map_iff in H1. destruct H1 as (t & <- & Ht'). split.
    + exists t. split; [exact Ht' | apply euclid_sq_dist, Hu; assumption].
    + intros t' e Ht'' He. rewrite (sq_dist_fun _ _ _ _ He (euclid_sq_dist f t' (Hu _ _ Hff Ht''))).
      apply H2, in_map, Ht''.
  - rewrite (Forall2_length' _ _ _ E), py_sum_total. destruct ds as [|d ds]; [|reflexivity].
    inversion E. congruence.
Qed.

Lemma sqrt_mean s n : 0 <= s -> (0 < n)%nat ->
  (0 <= sqrt (IZR s / INR n))%R /\ ((sqrt (IZR s / INR n) = 0)%R <-> s = 0).
Proof.
  intros Hs Hn. assert (Hn' : (0 < INR n)%R) by (apply lt_0_INR; exact Hn).
  assert (Hs' : (0 <= IZR s)%R) by (apply IZR_le; exact Hs).
  split; [apply sqrt_pos|]. split.
  - intros H. apply sqrt_eq_0 in H.
    + unfold Rdiv in H. apply Rmult_integral in H. destruct H as [H|H]; [apply eq_IZR; exact H|].
      exfalso. apply (Rinv_neq_0_compat (INR n)); [lra | exact H].
    + unfold Rdiv. apply Rmult_le_pos; [exact Hs' | left; apply Rinv_0_lt_compat; exact Hn'].
  - intros ->. unfold Rdiv. rewrite Rmult_0_l. apply sqrt_0.
Qed.

Lemma nearest_zero to f d : nearest to f d -> 0 <= d /\ (d = 0 <-> In f to).
Proof.
  intros [(t & Ht & Hd) Hmin]. pose proof (sq_dist_nonneg _ _ _ Hd). split; [exact H|]. split.
  - intros ->. assert (f = t) by (apply (sq_dist_zero _ _ _ Hd); reflexivity). subst. exact Ht.
  - intros Hf. assert (d <= 0); [|lia]. apply (Hmin f); [exact Hf|].
    replace 0 with (euclid_sqr_distance f f); [apply euclid_sq_dist; reflexivity|].
    apply (sq_dist_zero f f); [apply euclid_sq_dist; reflexivity | reflexivity].
Qed.

Lemma distance_zero from to v : from <> [] -> to <> [] -> uniform from to -> distance from to = Some v ->
  (0 <= v)%R /\ (v = 0%R <-> forall f, In f from -> In f to).
Proof.
  intros Hf Ht Hu E. destruct (distance_spec from to Hf Ht Hu) as (ds & Hds & E').
  rewrite E' in E. injection E as <-.
  assert (Hnn : forall d, In d ds -> 0 <= d).
  { intros d Hd. destruct (Forall2_In_r _ _ _ _ Hds Hd) as (f & _ & Hfd). apply (nearest_zero _ _ _ Hfd). }
  destruct (sqrt_mean (total ds) (length from)) as [H1 H2].
  { apply total_nonneg, Hnn. } { destruct from; [congruence | cbn; lia]. }
  split; [exact H1|]. rewrite H2, (total_zero ds Hnn). split.
  - intros H f Hff. destruct (Forall2_In_l _ _ _ _ Hds Hff) as (d & Hd & Hfd).
    apply (nearest_zero _ _ _ Hfd), H, Hd.
  - intros H d Hd. destruct (Forall2_In_r _ _ _ _ Hds Hd) as (f & Hff & Hfd).
    apply (nearest_zero _ _ _ Hfd), H, Hff.
Qed.

Lemma hausdorff_spec sol nds par : sol <> [] -> nds <> [] -> par <> [] -> uniform nds par -> uniform par sol ->
  exists g i v, generational_distance nds par = Some g /\ inverse_generational_distance sol par = Some i /\
    average_hausdorff_distance sol nds par = Some v /\ v = Rmax g i /\
    (v = 0%R <-> g = 0%R /\ i = 0%R).
Proof.
  intros H1 H2 H3 Hu Hu'. unfold average_hausdorff_distance, m_generational_distance, m_inverse_generational_distance,
    generational_distance, inverse_generational_distance.
  destruct (distance_spec nds par H2 H3 Hu) as (ds & _ & E). destruct (distance_spec par sol H3 H1 Hu') as (ds' & _ & E').
  destruct (distance_zero nds par _ H2 H3 Hu E) as [Hg _]. destruct (distance_zero par sol _ H3 H1 Hu' E') as [Hi _].
  rewrite E, E'. do 3 eexists. split; [reflexivity|]. split; [reflexivity|]. split; [reflexivity|].
  split.
  - unfold Rmax. destruct (Rlt_dec _ _), (Rle_dec _ _); lra.
  - destruct (Rlt_dec _ _); lra.
Qed.

(** ** Epsilon *)

Lemma eps_k_spec p s : length p = length s -> forall dim eps_k, (0 < dim <= length p)%nat ->
  exists e, eps_loop_k dim p s eps_k = Some e /\
    (forall k a b, (k < dim)%nat -> nth_error p k = Some a -> nth_error s k = Some b -> a - b <= e) /\
    (exists k a b, (k < dim)%nat /\ nth_error p k = Some a /\ nth_error s k = Some b /\ a - b = e).
Proof.
  intros Hl. induction dim as [|dim IH]; intros eps_k Hd; [lia|].
  destruct (nth_error p dim) as [a|] eqn:Ea; [|apply nth_error_None in Ea; lia].
  destruct (nth_error s dim) as [b|] eqn:Eb; [|apply nth_error_None in Eb; lia].
  unfold eps_loop_k in *. rewrite seq_S, fold_left_app, Nat.add_0_l. cbn [fold_left].
  destruct (Nat.eq_dec dim 0) as [->|Hne].
  - cbn [seq fold_left Nat.eqb]. rewrite Ea, Eb. exists (a - b). split; [reflexivity|]. split.
    + intros k a' b' Hk Ha' Hb'. assert (k = 0)%nat by lia. subst. assert (a' = a) by congruence. assert (b' = b) by congruence. subst. lia.
    + exists 0%nat, a, b. repeat split; auto.
  - destruct (IH eps_k ltac:(lia)) as (e & -> & H1 & H2). rewrite Ea, Eb.
    destruct (Nat.eqb_spec dim 0); [lia|]. eexists. split; [reflexivity|]. split.
    + intros k a' b' Hk Ha' Hb'. destruct (Nat.eq_dec k dim) as [->|].
      * assert (a' = a) by congruence. assert (b' = b) by congruence. subst. destruct (Z.ltb_spec e (a - b)); lia.
      * specialize (H1 k a' b' ltac:(lia) Ha' Hb'). destruct (Z.ltb_spec e (a - b)); lia.
    + destruct (Z.ltb_spec e (a - b)).
      * exists dim, a, b. repeat split; auto.
      * destruct H2 as (k & a' & b' & Hk & H2). exists k, a', b'. split; [lia | exact H2].
Qed.

(** The shift needed for [p] to weakly dominate [s] shifted. *)
Definition shift_for (p s : vec) (e : Z) : Prop :=
  forall e', Forall2 (fun x y => x <= y + e') p s <-> e <= e'.

Lemma eps_k_shift p s eps_k : length p = length s -> p <> [] ->
  exists e, eps_loop_k (length p) p s eps_k = Some e /\ shift_for p s e.
Proof.
  intros Hl Hp. destruct (eps_k_spec p s Hl (length p) eps_k) as (e & E & H1 & H2).
  { destruct p; [congruence | cbn; lia]. }
  exists e. split; [exact E|]. intros e'. rewrite Forall2_nth_error. split.
  - intros [_ H]. destruct H2 as (k & a & b & _ & Ha & Hb & <-). specialize (H k a b Ha Hb). lia.
  - intros H. split; [exact Hl|]. intros k a b Ha Hb. specialize (H1 k a b).
    assert (k < length p)%nat by (eapply nth_error_Some'; eauto). specialize (H1 H0 Ha Hb). lia.
Qed.

Lemma enumerate_snoc {A} (l : list A) x : enumerate (l ++ [x]) = enumerate l ++ [(length l, x)].
Proof.
  unfold enumerate. rewrite app_length, Nat.add_comm. cbn [length Nat.add]. rewrite seq_S, Nat.add_0_l.
  assert (H : forall (a : list nat) (b : list A) y z, length a = length b ->
    combine (a ++ [y]) (b ++ [z]) = combine a b ++ [(y, z)]).
  { induction a as [|u a IH]; intros [|v b] y z Hl; try discriminate; [reflexivity|]. cbn. f_equal. apply IH. cbn in Hl. lia. }
  apply H. apply seq_length.
Qed.

Definition best_for (pareto : list vec) (s : vec) (e : Z) : Prop :=
  forall e', (exists p, In p pareto /\ Forall2 (fun x y => x <= y + e') p s) <-> e <= e'.

Lemma eps_j_spec dim (s : vec) st (pareto : list vec) : (0 < dim)%nat -> length s = dim -> (forall p, In p pareto -> length p = dim) ->
  exists ej ek, eps_loop_j dim pareto s st = Some (ej, ek) /\ (pareto <> [] -> best_for pareto s ej).
Proof.
  intros Hd Hs. unfold eps_loop_j. induction pareto as [|p pareto IH] using rev_ind; intros Hp.
  - destruct st as [ej ek]. exists ej, ek. split; [reflexivity | congruence].
  - rewrite enumerate_snoc, fold_left_app. destruct IH as (ej & ek & -> & IH).
    { intros q Hq. apply Hp, in_or_app. auto. }
    cbn [fold_left]. assert (Hlp : length p = dim) by (apply Hp, in_or_app; right; left; reflexivity).
    destruct (eps_k_shift p s ek) as (e & Ek & He); [congruence | destruct p; cbn in *; [lia | discriminate]|].
    rewrite Hlp in Ek. rewrite Ek.
    match goal with |- context [(?a =? 0)%nat] => destruct (Nat.eqb_spec a 0) as [H0|H0] end; do 2 eexists; (split; [reflexivity|]); intros _ e'.
    + destruct pareto; [|discriminate]. cbn [app]. rewrite <- (He e'). split.
      * intros (q & [<-|[]] & Hq). exact Hq.
      * intros Hq. exists p. split; [left; reflexivity | exact Hq].
    + assert (Hpne : pareto <> []) by (intros ->; cbn in H0; lia). specialize (IH Hpne e'). specialize (He e').
      transitivity (ej <= e' \/ e <= e'); [|destruct (Z.ltb_spec e ej); lia].
      rewrite <- IH, <- He. split.
      * intros (q & Hq & Hf). apply in_app_or in Hq. destruct Hq as [Hq|[<-|[]]]; [left; eauto | right; exact Hf].
      * intros [(q & Hq & Hf)|Hf]; [exists q | exists p]; (split; [apply in_or_app; cbn; auto | exact Hf]).
Qed.

Lemma epsilon_spec dim (solution pareto : list vec) : (0 < dim)%nat -> pareto <> [] ->
  (forall p, In p pareto -> length p = dim) -> (forall s, In s solution -> length s = dim) ->
  exists r, epsilon solution pareto = Some r /\
    match r with
    | Some e => solution <> [] /\ forall e', covers_with e' pareto solution <-> e <= e'
    | None => solution = []
    end.
Proof.
  intros Hd Hne Hp. unfold epsilon. destruct pareto as [|p0 pareto']; [congruence|].
  set (pareto := p0 :: pareto') in *. assert (Hp0 : length p0 = dim) by (apply Hp; left; reflexivity). rewrite Hp0.
  intros Hs.
  cut (exists r ej ek, fold_left (eps_step dim pareto) (enumerate solution) (Some (None, 0, 0)) = Some (r, ej, ek) /\
     match r with
     | Some e => solution <> [] /\ forall e', covers_with e' pareto solution <-> e <= e'
     | None => solution = []
     end).
  { intros (r & ej & ek & -> & H). exists r. split; [reflexivity | exact H]. }
  induction solution as [|s solution IH] using rev_ind.
  - exists None, 0, 0. split; reflexivity.
  - rewrite enumerate_snoc, fold_left_app. destruct IH as (r & ej & ek & Hfold & IH).
    { intros q Hq. apply Hs, in_or_app. auto. }
    match goal with |- context [fold_left (eps_step dim pareto) ?l ?a] => match l with [_] => fail 1 | _ => replace (fold_left (eps_step dim pareto) l a) with (Some (r, ej, ek)) by (symmetry; exact Hfold) end end.
    cbn [fold_left]. unfold eps_step at 1. cbn [fst snd]. destruct (eps_j_spec dim s (ej, ek) pareto Hd) as (ej' & ek' & -> & Hb); [apply Hs, in_or_app; cbn; auto | exact Hp |].
    specialize (Hb ltac:(discriminate)). do 3 eexists. split; [reflexivity|].
    destruct r as [e|].
    + destruct IH as [IH1 IH2]. match goal with |- context [(?a =? 0)%nat] => destruct (Nat.eqb_spec a 0) as [H0|_] end; [destruct solution; [congruence | discriminate]|].
      cut (forall e', covers_with e' pareto (solution ++ [s]) <-> e <= e' /\ ej' <= e').
      { intros H. destruct (Z.ltb_spec e ej'); (split; [destruct solution; discriminate|]); intros e'; rewrite H; lia. }
      intros e'. rewrite <- IH2, <- (Hb e'). unfold covers_with. split.
      * intros H. split; [intros b Hbb; apply H, in_or_app; auto|]. apply H, in_or_app; cbn; auto.
      * intros [H1 H2] b Hbb. apply in_app_or in Hbb. destruct Hbb as [Hbb|[<-|[]]]; [apply H1, Hbb | exact H2].
    + subst solution. cbn. split; [discriminate|]. intros e'. rewrite <- (Hb e'). split.
      * intros H. apply H. left. reflexivity.
      * intros H b [<-|[]]. exact H.
Qed.

Lemma epsilon_swapped dim (solution pareto : list vec) : (0 < dim)%nat -> pareto <> [] -> solution <> [] ->
  (forall p, In p pareto -> length p = dim) -> (forall s, In s solution -> length s = dim) ->
  exists e, epsilon solution pareto = Some (Some e) /\ is_epsilon pareto solution e.
Proof.
  intros Hd Hne Hsn Hp Hs. destruct (epsilon_spec dim solution pareto Hd Hne Hp Hs) as ([e|] & E & H); [|congruence].
  exists e. split; [exact E|]. destruct H as [_ H]. split; [apply H; lia|]. intros e' He'. apply H, He'.
Qed.

(** ** Ratios *)

Lemma pos_of_nat b : (0 < b)%nat -> Zpos (Pos.of_nat b) = Z.of_nat b.
Proof. intros Hb. rewrite <- positive_nat_Z, Nat2Pos.id by lia. reflexivity. Qed.
Lemma frac_le_1 a b : (0 < b)%nat -> ((Z.of_nat a # Pos.of_nat b <= 1)%Q <-> (a <= b)%nat).
Proof. intros Hb. unfold Qle. cbn [Qnum Qden]. rewrite pos_of_nat by lia. lia. Qed.
Lemma frac_eq_1 a b : (0 < b)%nat -> ((Z.of_nat a # Pos.of_nat b == 1)%Q <-> a = b).
Proof. intros Hb. unfold Qeq. cbn [Qnum Qden]. rewrite pos_of_nat by lia. lia. Qed.
Lemma frac_pos a b : ((0 < Z.of_nat a # Pos.of_nat b)%Q <-> (0 < a)%nat).
Proof. unfold Qlt. cbn [Qnum Qden]. lia. Qed.
Lemma frac_nonneg a b : (0 <= Z.of_nat a # Pos.of_nat b)%Q.
Proof. unfold Qle. cbn [Qnum Qden]. lia. Qed.

Lemma filter_length_eq {A} (f : A -> bool) l : length (filter f l) = length l <-> forall x, In x l -> f x = true.
Proof.
  split.
  - intros H x Hx. destruct (f x) eqn:E; [reflexivity|]. pose proof (filter_length_lt f l x Hx E). lia.
  - intros H. rewrite filter_all; auto.
Qed.

Local Notation idv := (fun v : vec => v).

Lemma nd_nonempty d (l : list vec) : all_dim d idv l -> l <> [] -> exists x, In x l /\ nondominated_in idv l x.
Proof.
  intros Hd Hne. destruct (nd_exists idv d l Hd Hne) as (x & Hx & Hn).
  pose proof (filter_not_dominated_members _ idv d l Hd) as [H _].
  exists x. apply H. rewrite (filter_not_dominated_prefix idv d l Hd). apply filter_In. auto.
Qed.

Lemma non_domination_ratio_spec d (solution : list vec) : all_dim d idv solution -> solution <> [] ->
  exists q : Q, non_domination_ratio solution (filter_not_dominated (fun v => v) solution) = Some q /\
    (0 < q <= 1)%Q /\ ((q == 1)%Q <-> forall x, In x solution -> nondominated_in idv solution x).
Proof.
  intros Hd Hne. unfold non_domination_ratio.
  assert (Hl : (0 < length solution)%nat) by (destruct solution; [congruence | cbn; lia]).
  pose proof (filter_not_dominated_members _ idv d solution Hd) as [Hm _].
  pose proof (filter_not_dominated_prefix idv d solution Hd) as Hp.
  destruct (nd_nonempty d solution Hd Hne) as (x0 & Hx0 & Hn0).
  assert (Hin0 : In x0 (filter_not_dominated idv solution)) by (apply Hm; auto).
  destruct solution as [|s0 solution']; [congruence|]. set (solution := s0 :: solution') in *.
  eexists. split; [reflexivity|]. rewrite frac_pos, frac_le_1, frac_eq_1 by exact Hl. split; [split|].
  - destruct (filter_not_dominated idv solution); [contradiction | cbn; lia].
  - rewrite Hp. apply filter_length_le.
  - rewrite Hp, filter_length_eq. split.
    + intros H x Hx. apply Hm. rewrite Hp. apply filter_In. auto.
    + intros H x Hx. specialize (H x Hx). assert (In x (filter_not_dominated idv solution)) by (apply Hm; auto).
      rewrite Hp in H0. apply filter_In in H0. tauto.
Qed.

(** ** Pareto dominance indicator *)

Lemma vec_in_In v s : vec_in v s = true <-> In v s.
Proof.
  unfold vec_in. rewrite existsb_exists. split.
  - intros (x & Hx & E). unfold vec_eqb in E. destruct (list_eq_dec Z.eq_dec v x); [subst; exact Hx | discriminate].
  - intros H. exists v. split; [exact H|]. unfold vec_eqb. destruct (list_eq_dec Z.eq_dec v v); congruence.
Qed.

Lemma common_front_In d sols v : all_dim d idv (concat sols) ->
  (In v (common_front sols) <-> In v (concat sols) /\ nondominated_in idv (concat sols) v).
Proof.
  intros Hd. unfold common_front, set_of. rewrite nodup_In. apply (filter_not_dominated_members _ idv d _ Hd).
Qed.

Lemma pdi_spec d (sols : list (list vec)) (sol : list vec) : all_dim d idv (concat sols) -> In sol sols -> concat sols <> [] ->
  NoDup sol ->
  exists q : Q, pdi_of_result sol sols = Some q /\ (0 <= q <= 1)%Q /\
    ((q == 1)%Q <-> forall v, In v (concat sols) -> nondominated_in idv (concat sols) v -> In v sol) /\
    ((0 < q)%Q <-> exists v, In v sol /\ nondominated_in idv (concat sols) v).
Proof.
  intros Hd Hsol Hne Hnd.
  assert (Hincl : incl sol (concat sols)) by (intros v Hv; apply in_concat; eauto).
  assert (Hds : all_dim d idv sol) by (intros v Hv; apply Hd, Hincl, Hv).
  pose proof (filter_not_dominated_members _ idv d sol Hds) as [Hm _].
  pose proof (fun v => common_front_In d sols v Hd) as Hc.
  unfold pdi_of_result, pareto_dominance_indicator.
  assert (Hndc : NoDup (common_front sols)) by apply NoDup_nodup.
  assert (Hcne : common_front sols <> []).
  { destruct (nd_nonempty d _ Hd Hne) as (x & Hx & Hn). intros E. assert (In x (common_front sols)) by (apply Hc; auto).
    rewrite E in H. contradiction. }
  assert (Hl : (0 < length (common_front sols))%nat) by (destruct (common_front sols); [congruence | cbn; lia]).
  set (I := filter (fun s => vec_in s (common_front sols)) (filter_not_dominated idv sol)).
  assert (HndI : NoDup I).
  { apply NoDup_filter. rewrite (filter_not_dominated_prefix idv d sol Hds). apply NoDup_filter, Hnd. }
  assert (HI : forall v, In v I <-> In v sol /\ In v (common_front sols)).
  { intros v. unfold I. rewrite filter_In, vec_in_In, Hm, Hc. split; [tauto|]. intros (H1 & H2 & H3).
    split; [|auto]. split; [exact H1|]. intros y Hy. apply H3, Hincl, Hy. }
  assert (HIincl : incl I (common_front sols)) by (intros v Hv; apply HI, Hv).
  exists (Z.of_nat (length I) # Pos.of_nat (length (common_front sols)))%Q. split.
  { destruct (common_front sols); [congruence | reflexivity]. }
  rewrite frac_pos, frac_le_1, frac_eq_1 by exact Hl. split; [split; [apply frac_nonneg|]|split].
  - apply NoDup_incl_length; assumption.
  - split.
    + intros E v Hv Hn. apply HI. apply (@NoDup_length_incl _ I (common_front sols) HndI); [lia | exact HIincl |]. apply Hc. auto.
    + intros H. apply Nat.le_antisymm; [apply NoDup_incl_length; assumption|].
      apply NoDup_incl_length; [exact Hndc|]. intros v Hv. apply HI. split; [|exact Hv]. apply Hc in Hv. apply H; tauto.
  - split.
    + intros H. destruct I as [|v I'] eqn:E; [cbn in H; lia|]. exists v. assert (Hv : In v (v :: I')) by (left; reflexivity).
      apply HI in Hv. rewrite Hc in Hv. tauto.
    + intros (v & Hv & Hn). assert (In v I) by (apply HI; rewrite Hc; auto). destruct I; [contradiction | cbn; lia].
Qed.

(** ** Spacing *)

Lemma manhattan_fun a b s s' : manhattan a b s -> manhattan a b s' -> s = s'.
Proof. intros H. revert s'. induction H; intros s' H'; inversion H'; subst; [reflexivity|]. f_equal. auto. Qed.

Lemma comprehension_ext {A B} (f g : A -> option B) l : (forall x, In x l -> f x = g x) -> comprehension f l = comprehension g l.
Proof.
  induction l as [|x l IH]; intros H; [reflexivity|]. cbn. rewrite H by (left; reflexivity).
  rewrite IH; [reflexivity|]. intros y Hy. apply H. right. exact Hy.
Qed.

Lemma comprehension_map {A B C} (f : B -> option C) (g : A -> B) l : comprehension f (map g l) = comprehension (fun x => f (g x)) l.
Proof. induction l as [|x l IH]; [reflexivity|]. cbn. rewrite IH. reflexivity. Qed.

Lemma manhattan_ok a : forall b, length a = length b -> exists s, manhattan_distance (length a) a b = Some s /\ manhattan a b s.
Proof.
  unfold manhattan_distance. induction a as [|x a IH]; intros [|y b] Hl; try discriminate.
  - exists 0. split; [reflexivity | constructor].
  - cbn [length seq]. cbn [comprehension nth_error]. rewrite <- seq_shift, comprehension_map. cbn [nth_error].
    destruct (IH b) as (s & E & Hs); [cbn in Hl; lia|].
    destruct (comprehension (fun k => _) (seq 0 (length a))) as [l|]; [|discriminate].
    injection E as <-. exists (Z.abs (x - y) + py_sum l). split; [|constructor; exact Hs].
    rewrite !py_sum_total. reflexivity.
Qed.

Lemma enumerate_In {A} (l : list A) i x : In (i, x) (enumerate l) <-> nth_error l i = Some x.
Proof.
  induction l as [|y l IH] using rev_ind; [destruct i; cbn; split; [intros [] | discriminate | intros [] | discriminate]|].
  rewrite enumerate_snoc, in_app_iff, IH. cbn. split.
  - intros [H|[H|[]]].
    + rewrite nth_error_app1; [exact H | eapply nth_error_Some'; eauto].
    + injection H as <- <-. rewrite nth_error_app2, Nat.sub_diag by lia. reflexivity.
  - intros H. destruct (Nat.lt_ge_cases i (length l)) as [Hi|Hi].
    + rewrite nth_error_app1 in H by exact Hi. auto.
    + rewrite nth_error_app2 in H by exact Hi. destruct (i - length l)%nat eqn:E; cbn in H; [|destruct n; discriminate].
      injection H as <-. right. left. f_equal. lia.
Qed.

Lemma enumerate_nth {A} (l : list A) i : nth_error (enumerate l) i = match nth_error l i with Some x => Some (i, x) | None => None end.
Proof.
  induction l as [|y l IH] using rev_ind; [destruct i; reflexivity|]. rewrite enumerate_snoc.
  assert (Hlen : length (enumerate l) = length l) by (unfold enumerate; rewrite combine_length, seq_length; lia).
  destruct (Nat.lt_ge_cases i (length l)) as [Hi|Hi].
  - rewrite !nth_error_app1 by lia. exact IH.
  - rewrite !nth_error_app2, Hlen by lia. destruct (i - length l)%nat eqn:E; cbn.
    + replace i with (length l) by lia. reflexivity.
    + destruct n; reflexivity.
Qed.

(** The list of nearest-neighbour distances of a solution with at least two points. *)
Lemma min_distances_spec dims (l : list vec) : (forall v, In v l -> length v = dims) -> (2 <= length l)%nat ->
  exists ms, min_distances l dims = Some ms /\ length ms = length l /\
    forall i d, nth_error ms i = Some d -> nearest_other l i d.
Proof.
  intros Hd Hlen.
  assert (Hstep : forall i a, nth_error l i = Some a -> exists ds m,
    comprehension (fun '(_, ind_b) => manhattan_distance dims a ind_b) (filter (fun '(j, _) => negb (i =? j)%nat) (enumerate l)) = Some ds /\
    py_min ds = Some m /\ nearest_other l i m).
  { intros i a Ha. assert (Hla : length a = dims) by (apply Hd; eapply nth_error_In; eauto).
    set (fl := filter _ (enumerate l)).
    assert (Hfl : forall j b, In (j, b) fl <-> nth_error l j = Some b /\ j <> i).
    { intros j b. unfold fl. rewrite filter_In, enumerate_In, negb_true_iff, Nat.eqb_neq. intuition. }
    destruct (comprehension_total (fun '(_, ind_b) => manhattan_distance dims a ind_b) fl) as (ds & E).
    { intros [j b] Hj. apply Hfl in Hj. destruct (manhattan_ok a b) as (s & Es & _).
      { rewrite Hla. symmetry. apply Hd. eapply nth_error_In, Hj. }
      rewrite Hla in Es. eauto. }
    apply comprehension_spec in E. assert (Hne : ds <> []).
    { destruct fl as [|x fl'] eqn:Efl; [|inversion E; discriminate]. exfalso.
      assert (exists j b, j <> i /\ nth_error l j = Some b) as (j & b & Hj & Hb).
      { destruct (Nat.eq_dec i 0) as [->|Hi].
        - destruct (nth_error l 1) as [b|] eqn:Eb; [exists 1%nat, b; auto|]. apply nth_error_None in Eb. lia.
        - destruct (nth_error l 0) as [b|] eqn:Eb; [exists 0%nat, b; auto|]. apply nth_error_None in Eb. lia. }
      apply (proj2 (Hfl j b)). auto. }
    destruct (py_min_some ds Hne) as (m & Hm). exists ds, m. split; [apply comprehension_spec; exact E|]. split; [exact Hm|].
    apply py_min_spec in Hm. destruct Hm as [Hm1 Hm2]. split.
    - destruct (Forall2_In_r _ _ _ _ E Hm1) as ([j b] & Hj & Hs). apply Hfl in Hj. destruct Hj as [Hb Hj].
      exists j, a, b. repeat split; auto.
      destruct (manhattan_ok a b) as (s & Es & Hs'); [rewrite Hla; symmetry; apply Hd; eapply nth_error_In, Hb|].
      rewrite Hla in Es. cbn in Hs. assert (s = m) by congruence. subst. exact Hs'.
    - intros j a' b e Hj Ha' Hb He. assert (a' = a) by congruence. subst a'.
      destruct (Forall2_In_l _ _ _ (j, b) E) as (e' & He' & Hs); [apply Hfl; auto|].
      destruct (manhattan_ok a b) as (s & Es & Hs'); [rewrite Hla; symmetry; apply Hd; eapply nth_error_In, Hb|].
      rewrite Hla in Es. cbn in Hs. assert (s = e') by congruence. subst.
      rewrite (manhattan_fun _ _ _ _ He Hs'). apply Hm2, He'. }
  unfold min_distances.
  assert (H : forall k, (k <= length l)%nat -> exists ms,
    fold_left (fun acc '(i, ind_a) =>
      match acc, comprehension (fun '(_, ind_b) => manhattan_distance dims ind_a ind_b)
                        (filter (fun '(j, _) => negb (i =? j)%nat) (enumerate l)) with
      | Some ms, Some distances => match py_min distances with Some m => Some (ms ++ [m]) | None => Some ms end
      | _, _ => None
      end) (firstn k (enumerate l)) (Some []) = Some ms /\ length ms = k /\
    forall i d, nth_error ms i = Some d -> nearest_other l i d).
  { induction k as [|k IH]; intros Hk.
    - exists []. split; [reflexivity|]. split; [reflexivity|]. intros [|i] d Hi; discriminate.
    - destruct IH as (ms & IH1 & IH2 & IH3); [lia|].
      destruct (nth_error l k) as [a|] eqn:Ea; [|apply nth_error_None in Ea; lia].
      assert (Hf : firstn (S k) (enumerate l) = firstn k (enumerate l) ++ [(k, a)]).
      { pose proof (enumerate_nth l k) as Hn. rewrite Ea in Hn. clear - Hn.
        revert k Hn. generalize (enumerate l). clear. intros E k. revert E.
        generalize (k, a). intros z E. revert k z. induction E as [|e E IH]; intros [|k] z Hn; try discriminate; cbn in *.
        - injection Hn as ->. reflexivity.
        - f_equal. apply IH, Hn. }
      rewrite Hf, fold_left_app, IH1. cbn [fold_left].
      destruct (Hstep k a Ea) as (ds & m & -> & -> & Hm). exists (ms ++ [m]). split; [reflexivity|].
      split; [rewrite app_length; cbn; lia|]. intros i d Hi.
      destruct (Nat.lt_ge_cases i k) as [Hlt|Hge].
      + rewrite nth_error_app1 in Hi by lia. apply IH3, Hi.
      + rewrite nth_error_app2 in Hi by lia. destruct (i - length ms)%nat eqn:E; [|destruct n; discriminate].
        injection Hi as <-. replace i with k by lia. exact Hm. }
  destruct (H (length l) (le_n _)) as (ms & H1 & H2 & H3).
  rewrite firstn_all2 in H1 by (unfold enumerate; rewrite combine_length, seq_length; lia).
  exists ms. auto.
Qed.

Lemma fold_deviation l (m : R) : (forall a, fold_left (fun acc d => (acc + (m - IZR d) ^ 2)%R) l a =
  a + fold_right (fun d s => (m - IZR d) * (m - IZR d) + s)%R 0%R l)%R.
Proof. induction l as [|d l IH]; intros a; cbn; [lra|]. rewrite IH. lra. Qed.

Lemma deviations_nonneg l (m : R) : (0 <= fold_right (fun d s => (m - IZR d) * (m - IZR d) + s)%R 0%R l)%R.
Proof. induction l as [|d l IH]; cbn; [lra|]. pose proof (Rle_0_sqr (m - IZR d)). unfold Rsqr in *. lra. Qed.

Lemma deviations_zero l (m : R) : fold_right (fun d s => (m - IZR d) * (m - IZR d) + s)%R 0%R l = 0%R <->
  forall d, In d l -> IZR d = m.
Proof.
  induction l as [|d l IH]; cbn; [split; [intros _ ? [] | reflexivity]|].
  pose proof (deviations_nonneg l m). pose proof (Rle_0_sqr (m - IZR d)). unfold Rsqr in *. split.
  - intros E. assert (H1 : ((m - IZR d) * (m - IZR d) = 0)%R) by lra.
    assert (H2 : fold_right (fun d s => (m - IZR d) * (m - IZR d) + s)%R 0%R l = 0%R) by lra.
    intros e [<-|He]; [|apply IH; assumption].
    apply Rmult_integral in H1. destruct H1; lra.
  - intros H'. assert (Hd : IZR d = m) by (apply H'; auto). rewrite Hd.
    assert (E : fold_right (fun d s => (m - IZR d) * (m - IZR d) + s)%R 0%R l = 0%R) by (apply IH; auto). rewrite E. lra.
Qed.

Lemma spacing_spec (eps : R) dims (l : list vec) : (0 < eps)%R -> (forall v, In v l -> length v = dims) -> (2 <= length l)%nat ->
  exists ms v, length ms = length l /\ (forall i d, nth_error ms i = Some d -> nearest_other l i d) /\
    spacing eps l = Some v /\ v = sqrt (deviations ms / (INR (length l) - 1 + eps)) /\
    (0 <= v)%R /\ (v = 0%R <-> forall d d', In d ms -> In d' ms -> d = d').
Proof.
  intros He Hd Hl. destruct (min_distances_spec dims l Hd Hl) as (ms & E & Hlen & Hms).
  unfold spacing. destruct l as [|s0 l']; [cbn in Hl; lia|]. set (l := s0 :: l') in *.
  assert (Hs0 : length s0 = dims) by (apply Hd; left; reflexivity).
  rewrite Hs0. rewrite E. exists ms.
  assert (Hmne : ms <> []) by (destruct ms; [cbn in Hlen; lia | discriminate]).
  assert (Hmean : match ms with [] => 0%R | _ => (IZR (py_sum ms) / INR (length ms))%R end = mean ms).
  { destruct ms; [congruence|]. unfold mean. rewrite py_sum_total. reflexivity. }
  rewrite Hmean, fold_deviation, Rplus_0_l. fold (deviations ms).
  assert (Hn : (IZR (Z.of_nat (length l) - 1) = INR (length l) - 1)%R) by (rewrite minus_IZR, <- INR_IZR_INZ; reflexivity).
  rewrite Hn. assert (Hn2 : (2 <= INR (length l))%R) by (replace 2%R with (INR 2) by (cbn; lra); apply le_INR, Hl).
  eexists. split; [exact Hlen|]. split; [exact Hms|]. split; [reflexivity|]. split; [reflexivity|]. split; [apply sqrt_pos|].
  assert (Hpos : (0 < INR (length l) - 1 + eps)%R) by lra.
  assert (Hdev : (0 <= deviations ms)%R) by apply deviations_nonneg.
  assert (Hz : (sqrt (deviations ms / (INR (length l) - 1 + eps)) = 0)%R <-> deviations ms = 0%R).
  { split.
    - intros H. apply sqrt_eq_0 in H; [|unfold Rdiv; apply Rmult_le_pos; [exact Hdev | left; apply Rinv_0_lt_compat; exact Hpos]].
      unfold Rdiv in H. apply Rmult_integral in H. destruct H as [H|H]; [exact H|].
      exfalso. apply (Rinv_neq_0_compat (INR (length l) - 1 + eps)%R); [lra | exact H].
    - intros ->. unfold Rdiv. rewrite Rmult_0_l. apply sqrt_0. }
  rewrite Hz. unfold deviations. rewrite deviations_zero. split.
  - intros H d d' H1 H2. apply eq_IZR. rewrite (H d H1), (H d' H2). reflexivity.
  - intros H d Hdd. unfold mean.
    assert (Ht : forall m, (forall x, In x m -> x = d) -> total m = Z.of_nat (length m) * d).
    { induction m as [|x m IHm]; intros Hx; [reflexivity|]. cbn [total fold_right length]. fold (total m).
      rewrite (Hx x), IHm; [lia | intros; apply Hx; right; assumption | left; reflexivity]. }
    rewrite (Ht ms) by (intros x Hx; apply H; assumption). rewrite mult_IZR, <- INR_IZR_INZ.
    assert (0 < INR (length ms))%R by (apply lt_0_INR; destruct ms; [congruence | cbn; lia]).
    field. lra.
Qed.

Lemma spacing_single eps (v : vec) : spacing eps [v] = Some 0%R.
Proof. unfold spacing, min_distances. cbn. unfold Rdiv. rewrite Rmult_0_l, sqrt_0. reflexivity. Qed.

(** ** Extent *)

Lemma extent_width dims (l : list vec) : l <> [] -> (forall v, In v l -> length v = dims) -> forall i, (i < dims)%nat ->
  exists ds w, comprehension (fun '(x, y) => match nth_error x i, nth_error y i with
                      | Some a, Some b => Some (Z.abs (a - b)) | _, _ => None end) (list_prod l l) = Some ds /\
    py_max ds = Some w /\ width l i w.
Proof.
  intros Hne Hd i Hi.
  assert (Hn : forall v, In v l -> exists a, nth_error v i = Some a).
  { intros v Hv. destruct (nth_error v i) eqn:E; [eauto|]. apply nth_error_None in E. rewrite (Hd v Hv) in E. lia. }
  destruct (comprehension_total (fun '(x, y) => match nth_error x i, nth_error y i with
                      | Some a, Some b => Some (Z.abs (a - b)) | _, _ => None end) (list_prod l l)) as (ds & E).
  { intros [x y] H. apply in_prod_iff in H. destruct (Hn x (proj1 H)) as (a & ->), (Hn y (proj2 H)) as (b & ->). eauto. }
  rewrite E. apply comprehension_spec in E. exists ds.
  assert (Hdne : ds <> []). { destruct l as [|v l]; [congruence|]. cbn in E. inversion E. discriminate. }
  destruct (py_max_some ds Hdne) as (w & Hw). exists w. split; [reflexivity|]. split; [exact Hw|].
  apply py_max_spec in Hw. destruct Hw as [Hw1 Hw2].
  assert (Hall : forall x y a b, In x l -> In y l -> nth_error x i = Some a -> nth_error y i = Some b -> Z.abs (a - b) <= w).
  { intros x y a b Hx Hy Ha Hb. destruct (Forall2_In_l _ _ _ (x, y) E) as (e & He & H); [apply in_prod; assumption|].
    cbn in H. rewrite Ha, Hb in H. injection H as <-. apply Hw2, He. }
  destruct (Forall2_In_r _ _ _ _ E Hw1) as ([x y] & Hxy & H). apply in_prod_iff in Hxy. destruct Hxy as [Hx Hy].
  cbn in H. destruct (nth_error x i) as [a|] eqn:Ea; [|discriminate]. destruct (nth_error y i) as [b|] eqn:Eb; [|discriminate].
  injection H as Hab.
  exists (Z.min a b), (Z.max a b). split; [lia|]. split; [|split].
  - destruct (Z.min_spec a b) as [[_ ->]|[_ ->]]; eauto.
  - destruct (Z.max_spec a b) as [[_ ->]|[_ ->]]; eauto.
  - intros p z Hp Hz. pose proof (Hall p x z a Hp Hx Hz Ea). pose proof (Hall p y z b Hp Hy Hz Eb). lia.
Qed.

Lemma width_fun l k w w' : width l k w -> width l k w' -> w = w'.
Proof.
  intros (lo & hi & -> & (p & Hp & Ep) & (q & Hq & Eq) & H) (lo' & hi' & -> & (p' & Hp' & Ep') & (q' & Hq' & Eq') & H').
  pose proof (H _ _ Hp' Ep'). pose proof (H _ _ Hq' Eq'). pose proof (H' _ _ Hp Ep). pose proof (H' _ _ Hq Eq). lia.
Qed.

Lemma width_mono l l' k w w' : incl l l' -> width l k w -> width l' k w' -> 0 <= w <= w'.
Proof.
  intros Hi (lo & hi & -> & (p & Hp & Ep) & (q & Hq & Eq) & H) (lo' & hi' & -> & _ & _ & H').
  pose proof (H' _ _ (Hi _ Hp) Ep). pose proof (H' _ _ (Hi _ Hq) Eq). pose proof (H _ _ Hp Ep). lia.
Qed.

Lemma extent_spec dims (l : list vec) : l <> [] -> (forall v, In v l -> length v = dims) ->
  exists ws, length ws = dims /\ (forall k w, nth_error ws k = Some w -> width l k w) /\
    extent l = Some (sqrt (IZR (total ws))).
Proof.
  intros Hne Hd. unfold extent. destruct l as [|s0 l']; [congruence|]. set (l := s0 :: l') in *.
  assert (Hs0 : length s0 = dims) by (apply Hd; left; reflexivity). rewrite Hs0.
  destruct (comprehension_total (fun i => match comprehension (fun '(x, y) =>
                      match nth_error x i, nth_error y i with
                      | Some a, Some b => Some (Z.abs (a - b)) | _, _ => None end) (list_prod l l) with
              | Some l => py_max l | None => None end) (seq 0 dims)) as (ws & E).
  { intros i Hi. apply in_seq in Hi. destruct (extent_width dims l Hne Hd i) as (ds & w & -> & -> & _); [lia|]. eauto. }
  rewrite E. apply comprehension_spec in E. exists ws. split; [|split].
  - apply Forall2_length' in E. rewrite seq_length in E. congruence.
  - intros k w Hk. apply Forall2_nth_error in E. destruct E as [El E]. rewrite seq_length in El.
    assert (Hkd : (k < dims)%nat) by (rewrite El; eapply nth_error_Some'; eauto).
    specialize (E k k w). rewrite (nth_error_nth' _ 0%nat) in E by (rewrite seq_length; lia). rewrite seq_nth in E by lia.
    specialize (E eq_refl Hk). destruct (extent_width dims l Hne Hd k Hkd) as (ds & w' & E1 & E2 & Hw).
    rewrite E1 in E. assert (w' = w) by congruence. subst. exact Hw.
  - rewrite py_sum_total. reflexivity.
Qed.

Lemma extent_mono dims (l l' : list vec) v v' : l <> [] -> (forall x, In x l' -> length x = dims) -> incl l l' ->
  extent l = Some v -> extent l' = Some v' -> (0 <= v <= v')%R.
Proof.
  intros Hne Hd Hi E E'. assert (Hne' : l' <> []) by (destruct l as [|x l]; [congruence|]; intros ->; apply (Hi x); left; reflexivity).
  destruct (extent_spec dims l Hne) as (ws & L1 & W1 & E1); [intros; apply Hd, Hi; assumption|].
  destruct (extent_spec dims l' Hne' Hd) as (ws' & L2 & W2 & E2).
  rewrite E1 in E. rewrite E2 in E'. injection E as <-. injection E' as <-.
  assert (H : Forall2 (fun w w' => 0 <= w <= w') ws ws').
  { apply Forall2_nth_error. split; [congruence|]. intros k w w' Hw Hw'. eapply width_mono; eauto. }
  split; [apply sqrt_pos|]. apply sqrt_le_1_alt, IZR_le. clear - H.
  unfold total. induction H as [|w w2 ws ws2 Hw H IH]; cbn [fold_right]; lia.
Qed.

(** ** Distribution *)

Definition far (sigma : R) (x y : vec) : Prop := (sigma < sqrt (IZR (euclid_sqr_distance x y)))%R.
Definition farb (sigma : R) (x y : vec) : bool := if Rlt_dec sigma (sqrt (IZR (euclid_sqr_distance x y))) then true else false.

Lemma distribution_count sigma (l : list vec) :
  fold_left (fun acc x => (acc + fold_left (fun acc y => if Rlt_dec sigma (sqrt (IZR (euclid_sqr_distance x y)))
                                              then S acc else acc) l 0)%nat) l 0%nat
  = list_sum (map (fun x => length (filter (farb sigma x) l)) l).
Proof.
  assert (Hin : forall x m a, fold_left (fun acc y => if Rlt_dec sigma (sqrt (IZR (euclid_sqr_distance x y))) then S acc else acc) m a
                = (a + length (filter (farb sigma x) m))%nat).
  { intros x. induction m as [|y m IH]; intros a; cbn; [lia|]. unfold farb at 1. destruct (Rlt_dec _ _); rewrite IH; cbn; lia. }
  assert (Hout : forall m a, fold_left (fun acc x => (acc + fold_left (fun acc y => if Rlt_dec sigma (sqrt (IZR (euclid_sqr_distance x y)))
                                              then S acc else acc) l 0)%nat) m a
                 = (a + list_sum (map (fun x => length (filter (farb sigma x) l)) m))%nat).
  { unfold list_sum in *. induction m as [|x m IH]; intros a; cbn [fold_left map fold_right]; [lia|]. rewrite IH, Hin. lia. }
  rewrite Hout. reflexivity.
Qed.

Lemma sqr_self x : euclid_sqr_distance x x = 0.
Proof. apply (sq_dist_zero x x); [apply euclid_sq_dist; reflexivity | reflexivity]. Qed.

Lemma farb_self sigma x : (0 <= sigma)%R -> farb sigma x x = false.
Proof. intros H. unfold farb. rewrite sqr_self, sqrt_0. destruct (Rlt_dec _ _); [lra | reflexivity]. Qed.

Lemma sum_le n (l : list nat) : (forall x, In x l -> x <= n)%nat -> (list_sum l <= length l * n)%nat /\
  (list_sum l = length l * n <-> forall x, In x l -> x = n)%nat.
Proof.
  unfold list_sum. induction l as [|x l IH]; intros H; [cbn; split; [lia|]; split; [intros _ ? [] | reflexivity]|].
  destruct IH as [IH1 IH2]; [intros; apply H; right; assumption|]. assert (Hx : (x <= n)%nat) by (apply H; left; reflexivity).
  cbn [fold_right length]. split; [nia|]. split.
  - intros E y [<-|Hy]; [nia|]. apply IH2; [nia | exact Hy].
  - intros E. assert (x = n) by (apply E; left; reflexivity). assert (fold_right Nat.add 0 l = length l * n)%nat by (apply IH2; intros; apply E; right; assumption). nia.
Qed.

Lemma distribution_spec sigma (l : list vec) : (0 <= sigma)%R -> (2 <= length l)%nat ->
  exists v, distribution sigma l = Some v /\ (0 <= v <= 1)%R /\
    (v = 0%R <-> forall x y, In x l -> In y l -> ~ far sigma x y).
Proof.
  intros Hs Hl. unfold distribution.
  destruct (Z.eqb_spec (Z.of_nat (length l) * (Z.of_nat (length l) - 1)) 0) as [E|_]; [nia|].
  rewrite distribution_count. set (c := list_sum _). eexists. split; [reflexivity|].
  assert (Hn2 : (2 <= INR (length l))%R) by (replace 2%R with (INR 2) by (cbn; lra); apply le_INR, Hl).
  assert (Hden : (IZR (Z.of_nat (length l) * (Z.of_nat (length l) - 1)) = INR (length l * (length l - 1)))%R).
  { rewrite INR_IZR_INZ. f_equal. nia. }
  rewrite Hden. assert (Hpos : (0 < INR (length l * (length l - 1)))%R) by (apply lt_0_INR; nia).
  assert (Hc : (c <= length l * (length l - 1))%nat).
  { destruct (sum_le (length l - 1) (map (fun x => length (filter (farb sigma x) l)) l)) as [H _];
      [|rewrite map_length in H; exact H].
    intros k Hk. apply in_map_iff in Hk. destruct Hk as (x & <- & Hx).
    pose proof (filter_length_lt (farb sigma x) l x Hx (farb_self sigma x Hs)). lia. }
  assert (Hc0 : (0 <= INR c)%R) by apply pos_INR.
  split; [split|].
  - unfold Rdiv. apply Rmult_le_pos; [exact Hc0 | left; apply Rinv_0_lt_compat, Hpos].
  - apply le_INR in Hc. apply (Rmult_le_reg_r (INR (length l * (length l - 1)))); [exact Hpos|].
    unfold Rdiv. rewrite Rmult_assoc, Rinv_l, Rmult_1_r, Rmult_1_l by lra. exact Hc.
  - transitivity (c = 0)%nat.
    + split.
      * intros H. unfold Rdiv in H. apply Rmult_integral in H. destruct H as [H|H]; [apply INR_eq; rewrite H; reflexivity|].
        exfalso. apply (Rinv_neq_0_compat (INR (length l * (length l - 1)))); [lra | exact H].
      * intros ->. cbn [INR]. unfold Rdiv. apply Rmult_0_l.
    + unfold c. split.
      * intros H x y Hx Hy Hf.
        assert (Hz : forall m : list nat, list_sum m = 0%nat -> forall k, In k m -> k = 0%nat).
        { clear. unfold list_sum. induction m as [|a m IH]; intros H k Hk; [destruct Hk|]. cbn [fold_right] in H. destruct Hk as [<-|Hk]; [lia | apply IH; [lia | exact Hk]]. }
        assert (Hfx : length (filter (farb sigma x) l) = 0%nat) by (apply (Hz _ H), in_map_iff; eauto).
        assert (In y (filter (farb sigma x) l)).
        { apply filter_In. split; [exact Hy|]. unfold farb. unfold far in Hf. destruct (Rlt_dec _ _); [reflexivity | contradiction]. }
        destruct (filter (farb sigma x) l); [contradiction | discriminate].
      * intros H. assert (Hz : forall m, incl m l -> list_sum (map (fun x => length (filter (farb sigma x) l)) m) = 0%nat).
        { induction m as [|x m IHm]; intros Hi; [reflexivity|]. unfold list_sum in *. cbn [map fold_right]. rewrite IHm by (intros z Hz; apply Hi; right; exact Hz).
          rewrite filter_none; [reflexivity|]. intros y Hy. unfold farb. destruct (Rlt_dec _ _) as [r|]; [|reflexivity].
          exfalso. apply (H x y); [apply Hi; left; reflexivity | exact Hy | exact r]. }
        apply Hz. apply incl_refl.
Qed.

Lemma distribution_infinite sigma (l : list vec) : (length l <= 1)%nat -> distribution sigma l = None.
Proof. intros H. destruct l as [|x [|y l]]; [reflexivity | reflexivity | cbn in H; lia]. Qed.

Lemma farb_far sigma x y : length x = length y -> (farb sigma x y = true <-> far_apart sigma x y).
Proof.
  intros Hl. unfold farb, far_apart. destruct (Rlt_dec _ _) as [r|r]; split; intros H; try discriminate; auto.
  - eexists. split; [apply euclid_sq_dist; exact Hl | exact r].
  - destruct H as (s & Hs & H). rewrite (sq_dist_fun _ _ _ _ Hs (euclid_sq_dist x y Hl)) in H. contradiction.
Qed.

Lemma enumerate_length {A} (l : list A) : length (enumerate l) = length l.
Proof. unfold enumerate. rewrite combine_length, seq_length. lia. Qed.

Lemma enumerate_fst {A} (l : list A) : map fst (enumerate l) = seq 0 (length l).
Proof.
  induction l as [|x l IH] using rev_ind; [reflexivity|]. rewrite enumerate_snoc, map_app, IH, app_length, Nat.add_comm.
  cbn [length Nat.add]. rewrite seq_S. reflexivity.
Qed.

Lemma enumerate_snd {A} (l : list A) : map snd (enumerate l) = l.
Proof. induction l as [|x l IH] using rev_ind; [reflexivity|]. rewrite enumerate_snoc, map_app, IH. reflexivity. Qed.

Lemma NoDup_map_filter {A B} (g : A -> B) f l : NoDup (map g l) -> NoDup (map g (filter f l)).
Proof.
  induction l as [|x l IH]; intros H; [constructor|]. cbn in *. inversion H as [|? ? Hx Hl]; subst.
  destruct (f x); cbn; [|auto]. constructor; [|auto]. intros Hin. apply Hx. apply in_map_iff in Hin.
  destruct Hin as (y & <- & Hy). apply filter_In in Hy. apply in_map, Hy.
Qed.

Lemma length_filter_map {A B} (g : A -> B) f l : length (filter f (map g l)) = length (filter (fun x => f (g x)) l).
Proof. induction l as [|x l IH]; [reflexivity|]. cbn. destruct (f (g x)); cbn; lia. Qed.

Lemma distribution_exact dims sigma (l : list vec) : (2 <= length l)%nat -> (forall x, In x l -> length x = dims) ->
  exists v (pairs : list (nat * nat)), distribution sigma l = Some v /\
    v = (INR (length pairs) / (INR (length l) * (INR (length l) - 1)))%R /\ NoDup pairs /\
    (forall i j, In (i, j) pairs <-> exists x y, nth_error l i = Some x /\ nth_error l j = Some y /\ far_apart sigma x y).
Proof.
  intros Hl Hd. unfold distribution.
  destruct (Z.eqb_spec (Z.of_nat (length l) * (Z.of_nat (length l) - 1)) 0) as [E|_]; [nia|].
  rewrite distribution_count.
  set (row := fun ix : nat * vec => map (fun jy : nat * vec => (fst ix, fst jy)) (filter (fun jy => farb sigma (snd ix) (snd jy)) (enumerate l))).
  exists (INR (list_sum (map (fun x => length (filter (farb sigma x) l)) l)) / IZR (Z.of_nat (length l) * (Z.of_nat (length l) - 1)))%R,
    (flat_map row (enumerate l)). split; [reflexivity|]. split; [|split].
  - f_equal.
    + f_equal. rewrite <- (enumerate_snd l) at 1. rewrite map_map.
      assert (H : forall m, list_sum (map (fun x : nat * vec => length (filter (farb sigma (snd x)) l)) m) = length (flat_map row m)).
      { unfold list_sum. induction m as [|ix m IH]; [reflexivity|]. cbn [map fold_right flat_map]. rewrite IH, app_length. f_equal.
        unfold row. rewrite map_length. rewrite <- (enumerate_snd l) at 1. apply length_filter_map. }
      apply H.
    + f_equal. rewrite mult_IZR, minus_IZR, <- !INR_IZR_INZ. reflexivity.
  - assert (H : forall m, NoDup (map fst m) -> NoDup (flat_map row m)).
    { induction m as [|ix m IH]; intros Hn; [constructor|]. cbn in *. inversion Hn as [|? ? Hx Hm]; subst.
      apply NoDup_app_disj; [|apply IH; exact Hm|].
      - unfold row. rewrite <- (map_map fst (fun j => (fst ix, j))). apply FinFun.Injective_map_NoDup.
        + intros a b Hab. congruence.
        + apply NoDup_map_filter. rewrite enumerate_fst. apply seq_NoDup.
      - intros [a b] H1 H2. apply in_flat_map in H2. destruct H2 as (iy & Hiy & H2).
        unfold row in H1, H2. apply in_map_iff in H1, H2. destruct H1 as (? & E1 & _), H2 as (? & E2 & _).
        injection E1 as <- <-. injection E2 as E2 _. apply Hx. rewrite <- E2. apply in_map, Hiy. }
    apply H. rewrite enumerate_fst. apply seq_NoDup.
  - intros i j. rewrite in_flat_map. unfold row. split.
    + intros ([i' x] & Hx & H). apply in_map_iff in H. destruct H as ([j' y] & E & H). cbn in E. injection E as -> ->.
      apply filter_In in H. destruct H as [Hy H]. cbn in H. apply enumerate_In in Hx, Hy.
      exists x, y. split; [exact Hx|]. split; [exact Hy|]. apply farb_far; [|exact H].
      rewrite (Hd x), (Hd y); [reflexivity | |]; eapply nth_error_In; eauto.
    + intros (x & y & Hx & Hy & H). exists (i, x). split; [apply enumerate_In; exact Hx|]. apply in_map_iff.
      exists (j, y). split; [reflexivity|]. apply filter_In. split; [apply enumerate_In; exact Hy|]. cbn.
      apply farb_far; [|exact H]. rewrite (Hd x), (Hd y); [reflexivity | |]; eapply nth_error_In; eauto.
Qed.
