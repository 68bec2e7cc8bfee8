(** Proofs about NSGA-III. *)
From Verif Require Import Spec Base DomModel NDSortModel NDSortProofs VarModel VarProofs NsgaModel NsgaProofs
  MetModel MetProofs NslsSpec NslsModel NslsProofs Nsga3Spec Nsga3Model.
From Coq Require Import Reals Lra.
Local Open Scope nat_scope.

(** ---- reference points ---- *)
Lemma Rpower_unit x k : (0 < x < 1)%R -> 1 <= k -> (0 < Rpower x (1 / INR k) < 1)%R.
Proof.
  intros Hx Hk. split; [apply exp_pos|]. unfold Rpower.
  assert (0 < 1 / INR k)%R by (apply Rdiv_lt_0_compat; [lra | apply lt_0_INR; lia]).
  assert (ln x < 0)%R by (rewrite <- ln_1; apply ln_increasing; lra).
  apply Rlt_le_trans with (exp 0); [|rewrite exp_0; lra]. apply exp_increasing. revert H H0. generalize (1 / INR k)%R (ln x). intros a b Ha Hb. nra.
Qed.

Lemma reference_loop_ok left : forall rand sum, 1 <= left ->
  (forall k, (0 < rand k < 1)%R) -> (sum < 1)%R ->
  let p := reference_loop left rand sum in
  length p = left /\ Forall (fun x => (0 < x)%R) p /\ fold_right Rplus 0%R p = (1 - sum)%R.
Proof.
  induction left as [|k IH]; intros rand sum Hl Hr Hs; [lia|]. cbn [reference_loop]. destruct k as [|k'].
  - cbn. split; [reflexivity|]. split; [repeat constructor; lra | lra].
  - set (k := S k') in *. set (c := ((1 - sum) * (1 - Rpower (rand (S k)) (1 / INR k)))%R).
    pose proof (Rpower_unit (rand (S k)) k (Hr _) ltac:(unfold k; lia)) as Hp.
    assert (Hc : (0 < c < 1 - sum)%R) by (unfold c; nra).
    destruct (IH rand (sum + c)%R ltac:(unfold k; lia) Hr ltac:(lra)) as (L & F & S).
    cbn [length fold_right]. split; [now rewrite L|]. split; [constructor; [apply Hc | exact F]|]. rewrite S. lra.
Qed.

(** ---- distance to a line ---- *)
Lemma dot_away n : forall t r, dot (away n t r) (away n t r) = sq_dist_to n t r.
Proof.
  induction n as [|a n IH]; intros t [|b r]; cbn; auto. rewrite IH. reflexivity.
Qed.

Lemma sq_dist_to_expand n : forall t r, length n = length r ->
  sq_dist_to n t r = (dot n n - 2 * t * dot n r + t * t * dot r r)%R.
Proof.
  induction n as [|a n IH]; intros t [|b r] HL; try discriminate; cbn; [lra|].
  rewrite IH by (cbn in HL; lia). unfold Rsqr. lra.
Qed.

Lemma dot_nonneg x : (0 <= dot x x)%R.
Proof. induction x as [|a x IH]; cbn; [lra|]. nra. Qed.

Lemma simplex_dot m p : on_simplex m p -> (0 < dot p p)%R.
Proof.
  intros (_ & F & S). destruct (Rle_lt_or_eq_dec _ _ (dot_nonneg p)) as [H|H]; [exact H|]. exfalso.
  assert (Z : fold_right Rplus 0%R p = 0%R); [|lra]. clear - H F. induction p as [|a p IH]; cbn in *; [reflexivity|].
  inversion F; subst. pose proof (dot_nonneg p). pose proof (Rle_0_sqr a) as Ha. unfold Rsqr in Ha.
  assert (a = 0%R) by (apply Rsqr_0_uniq; unfold Rsqr; lra). subst a. rewrite IH; try assumption; lra.
Qed.

Lemma rejection_distance n r : length n = length r -> (0 < dot r r)%R ->
  line_distance n r (scalar_rejection n r (norm r)).
Proof.
  intros HL Hr. unfold scalar_rejection, scalar_projection, norm.
  set (t := (dot n r / sqrt (dot r r) / sqrt (dot r r))%R).
  assert (Et : (t * dot r r = dot n r)%R).
  { unfold t. rewrite <- (sqrt_sqrt (dot r r)) at 3 by lra. field. apply Rgt_not_eq, sqrt_lt_R0, Hr. }
  assert (E : Rsqr (sqrt (dot (away n t r) (away n t r))) = sq_dist_to n t r).
  { rewrite Rsqr_sqrt by apply dot_nonneg. apply dot_away. }
  split; [apply sqrt_pos|]. rewrite E. split; [eauto|]. intros t'. rewrite !sq_dist_to_expand by exact HL.
  pose proof (Rle_0_sqr (t' - t)) as Hq. unfold Rsqr in Hq. rewrite <- Et. nra.
Qed.

Lemma line_distance_fun n r d d' : line_distance n r d -> line_distance n r d' -> d = d'.
Proof.
  intros (P1 & (t & E1) & M1) (P2 & (t' & E2) & M2). apply Rsqr_inj; [exact P1 | exact P2|].
  specialize (M1 t'). specialize (M2 t). lra.
Qed.

(** ---- clustering ---- *)
Lemma closest_spec n refs : forall i best,
  match closest n i best refs with
  | None => best = None /\ refs = []
  | Some (j, m) =>
      (best = Some (j, m) \/ exists k r, j = i + k /\ nth_error refs k = Some r /\ m = scalar_rejection n r (norm r)) /\
      (forall j' m', best = Some (j', m') -> (m <= m')%R) /\
      (forall k r, nth_error refs k = Some r -> (m <= scalar_rejection n r (norm r))%R)
  end.
Proof.
  induction refs as [|r refs IH]; intros i best; cbn [closest].
  - destruct best as [[j m]|]; [|auto]. split; [auto|]. split; [intros j' m' [= _ <-]; lra | intros [|k] r'; discriminate].
  - set (d := scalar_rejection n r (norm r)).
    set (best' := match best with None => Some (i, d) | Some (j, m) => if Rlt_dec d m then Some (i, d) else Some (j, m) end).
    specialize (IH (S i) best').
    assert (B : exists jb mb, best' = Some (jb, mb) /\ (mb <= d)%R /\ (forall j' m', best = Some (j', m') -> (mb <= m')%R) /\
              (best = Some (jb, mb) \/ (jb = i /\ mb = d))).
    { unfold best'. destruct best as [[j m]|]; [destruct (Rlt_dec d m)|].
      - exists i, d. split; [reflexivity|]. split; [lra|]. split; [intros j' m' [= _ <-]; lra | auto].
      - exists j, m. split; [reflexivity|]. split; [lra|]. split; [intros j' m' [= _ <-]; lra | auto].
      - exists i, d. split; [reflexivity|]. split; [lra|]. split; [discriminate | auto]. }
    destruct B as (jb & mb & EB & Bd & Bb & Bo). rewrite EB in *.
    destruct (closest n (S i) (Some (jb, mb)) refs) as [[j m]|]; [|destruct IH; discriminate].
    destruct IH as (H1 & H2 & H3). specialize (H2 jb mb eq_refl). split; [|split].
    + destruct H1 as [[= <- <-]|(k & r' & -> & Hk & ->)].
      * destruct Bo as [Bo|(-> & ->)]; [now left|]. right. exists 0, r. rewrite Nat.add_0_r. auto.
      * right. exists (S k), r'. split; [lia|]. auto.
    + intros j' m' E. specialize (Bb j' m' E). lra.
    + intros [|k] r' Hk; cbn in Hk; [injection Hk as <-; fold d; lra | eapply H3; eauto].
Qed.

Lemma clustering_ok refs ns : refs <> [] ->
  exists cs, clustering refs ns = Some cs /\
    Forall2 (fun n c => exists r, nth_error refs (fst c) = Some r /\ snd c = scalar_rejection n r (norm r) /\
       forall k r', nth_error refs k = Some r' -> (snd c <= scalar_rejection n r' (norm r'))%R) ns cs.
Proof.
  intros Hr. unfold clustering.
  destruct (comprehension_total (fun n => closest n 0 None refs) ns) as (cs & E).
  { intros n _. pose proof (closest_spec n refs 0 None) as H. destruct (closest n 0 None refs) as [[j m]|]; [eauto|]. destruct H; congruence. }
  exists cs. split; [exact E|]. apply comprehension_spec in E. eapply Forall2_impl; [|exact E].
  cbn. intros n [j m] Hn. pose proof (closest_spec n refs 0 None) as H. rewrite Hn in H. cbn [fst snd].
  destruct H as ([H|(k & r & -> & Hk & ->)] & _ & H3); [discriminate|]. exists r. auto.
Qed.

(** ---- ideal point ---- *)
Section Extend.
  Variable better : Z -> Z -> bool.
  Variable le : Z -> Z -> Prop.
  Hypothesis better_ok : forall o x, if better o x then le o x else le x o.
  Hypothesis le_refl : forall x, le x x.
  Hypothesis le_trans : forall x y z, le x y -> le y z -> le x z.

  Definition best_point (m : nat) (os : list vec) (point : list (option Z)) : Prop :=
    length point = m /\
    forall j p, nth_error point j = Some p ->
      match p with
      | None => os = []
      | Some x => (exists o, In o os /\ nth_error o j = Some x) /\ forall o y, In o os -> nth_error o j = Some y -> le x y
      end.

  Lemma extend_nth : forall (o : vec) (point : list (option Z)), length point = length o ->
    exists point', extend better point o = Some point' /\ length point' = length point /\
      forall j p', nth_error point' j = Some p' -> exists p y, nth_error point j = Some p /\ nth_error o j = Some y /\
        p' = match p with Some x => if better y x then Some y else Some x | None => Some y end.
  Proof.
    induction o as [|y o IH]; intros [|p ps] HL; try discriminate.
    - exists []. repeat split. intros [|j]; discriminate.
    - cbn [extend]. destruct (IH ps ltac:(cbn in HL; lia)) as (r & -> & L & H). eexists. split; [reflexivity|].
      split; [cbn; lia|]. intros [|j] p' Hj; cbn in Hj.
      + injection Hj as <-. exists p, y. auto.
      + cbn. now apply H.
  Qed.

  Lemma extend_best m os point o : best_point m os point -> length o = m ->
    exists point', extend better point o = Some point' /\ best_point m (os ++ [o]) point'.
  Proof.
    intros (L & H) Ho. destruct (extend_nth o point) as (p' & E & L' & H'); [congruence|].
    exists p'. split; [exact E|]. split; [congruence|]. intros j q Hj. destruct (H' j q Hj) as (p & y & Hp & Hy & ->).
    specialize (H j p Hp). pose proof (better_ok y) as Hb. destruct p as [x|].
    - destruct H as ((o1 & Ho1 & E1) & Hall). specialize (Hb x). destruct (better y x).
      + split; [exists o; split; [apply in_or_app; cbn; auto | exact Hy]|].
        intros o2 y2 H2 E2. apply in_app_or in H2. destruct H2 as [H2|[<-|[]]]; [eauto|]. rewrite Hy in E2. injection E2 as <-. apply le_refl.
      + split; [exists o1; split; [apply in_or_app; auto | exact E1]|].
        intros o2 y2 H2 E2. apply in_app_or in H2. destruct H2 as [H2|[<-|[]]]; [eauto|]. rewrite Hy in E2. injection E2 as <-. exact Hb.
    - subst os. cbn [app]. split; [exists o; cbn; auto|]. intros o2 y2 [<-|[]] E2. rewrite Hy in E2. injection E2 as <-. apply le_refl.
  Qed.

  Lemma along_best m (inds : list indiv) : forall os point, best_point m os point -> all_dim m objs inds ->
    exists point', along (extend better) point inds = Some point' /\ best_point m (os ++ map objs inds) point'.
  Proof.
    induction inds as [|i l IH]; intros os point HB HD; cbn [along].
    - exists point. cbn. rewrite app_nil_r. auto.
    - destruct (extend_best m os point (objs i) HB (HD i (or_introl eq_refl))) as (p1 & -> & HB1).
      destruct (IH _ p1 HB1) as (p2 & -> & HB2); [intros x Hx; apply HD; now right|].
      exists p2. split; [reflexivity|]. rewrite <- app_assoc in HB2. exact HB2.
  Qed.

  Lemma best_point_init m : best_point m [] (repeat None m).
  Proof.
    split; [apply repeat_length|]. intros j p Hj. apply nth_error_In, repeat_spec in Hj. now subst.
  Qed.
End Extend.

Lemma lower_ok o x : if (o <? x)%Z then Z.le o x else Z.le x o.
Proof. destruct (Z.ltb_spec o x); lia. Qed.
Lemma raise_ok o x : if (x <? o)%Z then Z.ge o x else Z.ge x o.
Proof. destruct (Z.ltb_spec x o); lia. Qed.
Lemma ge_refl x : Z.ge x x. Proof. lia. Qed.
Lemma ge_trans x y z : Z.ge x y -> Z.ge y z -> Z.ge x z. Proof. lia. Qed.

(** ---- normalisation ---- *)
Lemma normalized_ok eps : (0 < eps)%Z -> forall (os : vec) (ideal defiled : list (option Z)),
  (forall j o, nth_error os j = Some o -> exists i d, nth_error ideal j = Some (Some i) /\ nth_error defiled j = Some (Some d) /\ (i <= o <= d)%Z) ->
  exists ns, normalized eps ideal defiled os = Some ns /\ length ns = length os /\ Forall (fun x => (0 <= x < 1)%R) ns.
Proof.
  intros He. induction os as [|o os IH]; intros ideal defiled H; cbn [normalized].
  - exists []. split; [reflexivity|]. split; [reflexivity | constructor].
  - destruct (H 0 o eq_refl) as (i & d & Ei & Ed & Hid). destruct ideal as [|i' ideal], defiled as [|d' defiled]; cbn in Ei, Ed; try discriminate.
    injection Ei as ->. injection Ed as ->.
    replace (d - i + eps =? 0)%Z with false by (symmetry; apply Z.eqb_neq; lia).
    destruct (IH ideal defiled) as (ns & -> & L & F); [intros j; exact (H (S j))|].
    eexists. split; [reflexivity|]. split; [cbn; lia|]. constructor; [|exact F].
    assert (Hd : (0 < IZR (d - i + eps))%R) by (apply IZR_lt; lia). split.
    + apply Rmult_le_pos; [apply IZR_le; lia | left; now apply Rinv_0_lt_compat].
    + apply (Rmult_lt_reg_r (IZR (d - i + eps))); [exact Hd|]. unfold Rdiv. rewrite Rmult_assoc, Rinv_l by lra.
      rewrite Rmult_1_r, Rmult_1_l. apply IZR_lt. lia.
Qed.

Lemma normalize_ok eps m ideal (inds : list indiv) (os : list vec) : (0 < eps)%Z -> all_dim m objs inds ->
  best_point Z.le m os ideal -> (forall i, In i inds -> In (objs i) os) ->
  exists ns, normalize eps m ideal inds = Some ns /\ Forall2 (fun i n => length n = m /\ Forall (fun x => (0 <= x < 1)%R) n) inds ns.
Proof.
  intros He HD (LI & HI) Hin. unfold normalize.
  destruct (along_best (fun o x => (x <? o)%Z) Z.ge raise_ok ge_refl ge_trans m inds [] (repeat None m) (best_point_init Z.ge m) HD) as (df & Ed & (Ld & Hd)).
  unfold raise_point. rewrite Ed. cbn [app] in Hd.
  assert (N : forall i, In i inds -> exists n, normalized eps ideal df (objs i) = Some n /\ length n = m /\ Forall (fun x => (0 <= x < 1)%R) n).
  { intros i Hi. destruct (normalized_ok eps He (objs i) ideal df) as (n & E & L & F).
    - intros j o Ho. assert (Hj : j < m) by (rewrite <- (HD i Hi); now apply nth_error_Some' in Ho).
      destruct (nth_error ideal j) as [p|] eqn:Ep; [|apply nth_error_None in Ep; lia].
      destruct (nth_error df j) as [q|] eqn:Eq; [|apply nth_error_None in Eq; lia].
      specialize (HI j p Ep). specialize (Hd j q Eq).
      destruct p as [p|]; [|exfalso; specialize (Hin i Hi); rewrite HI in Hin; destruct Hin].
      destruct q as [q|]; [|exfalso; apply (in_map objs) in Hi; rewrite Hd in Hi; destruct Hi].
      destruct HI as (_ & HI), Hd as (_ & Hd). exists p, q. split; [reflexivity|]. split; [reflexivity|].
      specialize (HI (objs i) o (Hin i Hi) Ho). specialize (Hd (objs i) o (in_map objs inds i Hi) Ho). lia.
    - exists n. rewrite (HD i Hi) in L. auto. }
  destruct (comprehension_total (fun i => normalized eps ideal df (objs i)) inds) as (ns & E).
  { intros i Hi. destruct (N i Hi) as (n & En & _). eauto. }
  exists ns. split; [exact E|]. apply comprehension_spec in E. apply Forall2_nth_error in E. destruct E as (L & E).
  apply Forall2_of_nth; [exact L|]. intros j i n Hi Hn. specialize (E j i n Hi Hn).
  destruct (N i) as (n' & En & Hp); [eapply nth_error_In; eauto|]. congruence.
Qed.

(** Whoever is normalised: it is enough that one of them is among those the ideal point was taken over. *)
Lemma normalize_runs eps m ideal (inds : list indiv) (os : list vec) : (0 < eps)%Z -> all_dim m objs inds ->
  best_point Z.le m os ideal -> (exists i, In i inds /\ In (objs i) os) ->
  exists ns, normalize eps m ideal inds = Some ns /\ Forall2 (fun i n => length n = m) inds ns.
Proof.
  intros He HD (LI & HI) (i0 & Hi0 & Ho0). unfold normalize.
  destruct (along_best (fun o x => (x <? o)%Z) Z.ge raise_ok ge_refl ge_trans m inds [] (repeat None m) (best_point_init Z.ge m) HD) as (df & Ed & (Ld & Hd)).
  unfold raise_point. rewrite Ed. cbn [app] in Hd.
  assert (G : forall j, j < m -> exists p q, nth_error ideal j = Some (Some p) /\ nth_error df j = Some (Some q) /\ (p <= q)%Z).
  { intros j Hj. destruct (nth_error ideal j) as [p|] eqn:Ep; [|apply nth_error_None in Ep; lia].
    destruct (nth_error df j) as [q|] eqn:Eq; [|apply nth_error_None in Eq; lia].
    specialize (HI j p Ep). specialize (Hd j q Eq).
    destruct p as [p|]; [|exfalso; rewrite HI in Ho0; destruct Ho0].
    destruct q as [q|]; [|exfalso; apply (in_map objs) in Hi0; rewrite Hd in Hi0; destruct Hi0].
    destruct HI as (_ & HI), Hd as (_ & Hd). exists p, q. split; [reflexivity|]. split; [reflexivity|].
    destruct (nth_error (objs i0) j) as [o|] eqn:Eo; [|apply nth_error_None in Eo; rewrite (HD i0 Hi0) in Eo; lia].
    specialize (HI (objs i0) o Ho0 Eo). specialize (Hd (objs i0) o (in_map objs inds i0 Hi0) Eo). lia. }
  assert (N : forall (os1 : vec) ideal1 df1, (forall j, j < length os1 -> exists p q, nth_error ideal1 j = Some (Some p) /\ nth_error df1 j = Some (Some q) /\ (p <= q)%Z) ->
    exists n, normalized eps ideal1 df1 os1 = Some n /\ length n = length os1).
  { clear - He. induction os1 as [|o os1 IH]; intros ideal1 df1 H; cbn [normalized]; [exists []; auto|].
    destruct (H 0 ltac:(cbn; lia)) as (i & d & Ei & Ed & Hid). destruct ideal1 as [|i' ideal1], df1 as [|d' df1]; cbn in Ei, Ed; try discriminate.
    injection Ei as ->. injection Ed as ->.
    replace (d - i + eps =? 0)%Z with false by (symmetry; apply Z.eqb_neq; lia).
    destruct (IH ideal1 df1) as (ns & -> & L); [intros j Hj; exact (H (S j) ltac:(cbn; lia))|].
    eexists. split; [reflexivity | cbn; lia]. }
  assert (N' : forall i, In i inds -> exists n, normalized eps ideal df (objs i) = Some n /\ length n = m).
  { intros i Hi. destruct (N (objs i) ideal df) as (n & En & Ln); [rewrite (HD i Hi); exact G|]. exists n. rewrite (HD i Hi) in Ln. auto. }
  destruct (comprehension_total (fun i => normalized eps ideal df (objs i)) inds) as (ns & E).
  { intros i Hi. destruct (N' i Hi) as (n & En & _). eauto. }
  exists ns. split; [exact E|]. apply comprehension_spec in E. apply Forall2_nth_error in E. destruct E as (L & E).
  apply Forall2_of_nth; [exact L|]. intros j i n Hi Hn. specialize (E j i n Hi Hn).
  destruct (N' i) as (n' & En & Hp); [eapply nth_error_In; eauto|]. congruence.
Qed.

Lemma normalized_value eps : forall (os : vec) (ideal defiled : list (option Z)) (ns : list R), normalized eps ideal defiled os = Some ns ->
  length ns = length os /\
  forall j o, nth_error os j = Some o -> exists i d, nth_error ideal j = Some (Some i) /\ nth_error defiled j = Some (Some d) /\
    nth_error ns j = Some (IZR (o - i) / IZR (d - i + eps))%R.
Proof.
  induction os as [|o os IH]; intros ideal defiled ns E; cbn [normalized] in E.
  - injection E as <-. split; [reflexivity|]. intros [|j] o Hj; discriminate.
  - destruct ideal as [|[i|] ideal]; try discriminate. destruct defiled as [|[d|] defiled]; try discriminate.
    destruct (d - i + eps =? 0)%Z; [discriminate|].
    destruct (normalized eps ideal defiled os) as [r|] eqn:Er; [|discriminate]. injection E as <-.
    destruct (IH _ _ _ Er) as (L & H). split; [cbn; lia|]. intros [|j] o' Ho; cbn in Ho.
    + injection Ho as <-. exists i, d. auto.
    + exact (H j o' Ho).
Qed.

Lemma normalize_values eps m ideal (inds : list indiv) (ns : list (list R)) : all_dim m objs inds ->
  normalize eps m ideal inds = Some ns ->
  length ns = length inds /\
  forall p i n j o, nth_error inds p = Some i -> nth_error ns p = Some n -> nth_error (objs i) j = Some o ->
    exists low high, nth_error ideal j = Some (Some low) /\
      (exists i', In i' inds /\ nth_error (objs i') j = Some high) /\
      (forall i' o', In i' inds -> nth_error (objs i') j = Some o' -> (o' <= high)%Z) /\
      nth_error n j = Some (IZR (o - low) / IZR (high - low + eps))%R.
Proof.
  intros HD E. unfold normalize in E.
  destruct (along_best (fun o x => (x <? o)%Z) Z.ge raise_ok ge_refl ge_trans m inds [] (repeat None m) (best_point_init Z.ge m) HD) as (df & Ed & (Ld & Hd)).
  unfold raise_point in E. rewrite Ed in E. cbn [app] in Hd.
  apply comprehension_spec in E. apply Forall2_nth_error in E. destruct E as (L & E). split; [congruence|].
  intros p i n j o Hp Hn Ho. specialize (E p i n Hp Hn). destruct (normalized_value _ _ _ _ _ E) as (_ & H).
  destruct (H j o Ho) as (low & high & El & Eh & En). exists low, high. split; [exact El|].
  specialize (Hd j _ Eh). cbn in Hd. destruct Hd as ((o1 & Ho1 & E1) & Hall). apply in_map_iff in Ho1. destruct Ho1 as (i' & <- & Hi').
  split; [eauto|]. split; [|exact En]. intros i2 o2 Hi2 Ho2. specialize (Hall (objs i2) o2 (in_map objs _ _ Hi2) Ho2). lia.
Qed.

(** ---- selection ---- *)
Lemma create_final_ok fuel sample size (fronts : list (list nat)) n : is_sample sample ->
  Permutation (concat fronts) (seq 0 n) -> Forall (fun f => f <> []) fronts -> size < n -> n <= fuel ->
  exists e k last kept, create_final_population fuel sample size fronts = Done e /\ length e = size /\ NoDup e /\
    (forall i, In i e -> i < n) /\ nth_error fronts k = Some last /\ e = concat (firstn k fronts) ++ kept /\ incl kept last /\
    length (concat (firstn k fronts)) <= size < length (concat (firstn k fronts)) + length last.
Proof.
  intros HS HP HN Hsz Hf. unfold create_final_population.
  assert (LF : length (concat fronts) = n) by (rewrite (Permutation_length HP); apply seq_length).
  assert (LN : length fronts <= length (concat fronts)).
  { clear - HN. induction HN as [|f l Hf HN IH]; cbn; [lia|]. rewrite app_length. destruct f; [congruence|]. cbn. lia. }
  destruct (fill_spec fronts size fuel 0 [] eq_refl) as (k & last & _ & En & -> & HL); [cbn; lia | lia | lia|].
  assert (ND : NoDup (concat fronts)) by (eapply Permutation_NoDup; [symmetry; exact HP | apply seq_NoDup]).
  assert (SP : exists r, concat fronts = concat (firstn k fronts) ++ last ++ r).
  { apply nth_error_split in En. destruct En as (l1 & l2 & -> & <-). exists (concat l2).
    rewrite firstn_app, Nat.sub_diag, firstn_all. cbn [firstn]. rewrite app_nil_r, concat_app. reflexivity. }
  destruct SP as (r & SP). pose proof ND as ND'. rewrite SP in ND'.
  apply NoDup_app_inv in ND'. destruct ND' as (N1 & N2 & N3). apply NoDup_app_inv in N2. destruct N2 as (N2 & _ & _).
  destruct (HS (size - length (concat (firstn k fronts))) last N2) as (S1 & S2 & S3); [lia|].
  eexists _, k, last, _. split; [reflexivity|]. split; [rewrite app_length; lia|].
  split; [apply NoDup_app_disj; auto; intros x Hx Hk; apply (N3 x Hx), in_or_app; left; auto|].
  split; [|auto 10].
  intros i Hi. assert (In i (seq 0 n)); [|rewrite in_seq in H; lia].
  eapply Permutation_in; [exact HP|]. rewrite SP. apply in_app_or in Hi. apply in_or_app. destruct Hi as [Hi|Hi]; [now left | right].
  apply in_or_app. left. auto.
Qed.

Lemma theta_fronts (cluster : nat -> nat) (fitness : nat -> R) iter n : (forall x l, Permutation (iter x l) l) ->
  exists fronts, nd_sort_gen (theta_dominates3 cluster fitness) iter (seq 0 n) = Some fronts /\
    fronts_by (fun x y => cluster x = cluster y /\ (fitness x < fitness y)%R) n fronts.
Proof.
  intros Hit.
  destruct (nd_sort_positional (theta_dominates3 cluster fitness) (fun x y => cluster x = cluster y /\ (fitness x < fitness y)%R)
              iter (seq 0 n) Hit (seq_NoDup _ _)) as (fs & E & HP & HN & HF).
  - intros x y _ _. unfold theta_dominates3. rewrite andb_true_iff, Nat.eqb_eq. destruct (Rlt_dec (fitness x) (fitness y)); intuition congruence.
  - intros x (_ & H). lra.
  - intros x y z (H1 & H2) (H3 & H4). split; [congruence | lra].
  - exists fs. split; [exact E|]. split; [exact HP|]. split; [exact HN|]. intros k front i Hk. rewrite (HF k front i Hk), in_seq.
    split; (intros (A & B & C); split; [lia|]; split; [exact B|]; intros j Hj; apply C; rewrite ?in_seq in *; lia).
Qed.

(** ---- the driver ---- *)
Lemma evaluate_trace P (l : list indiv) : forall done c ar tr,
  exists l' c' ar' new, fold_left (evaluate P) l (done, (c, ar, tr)) = (l', (c', ar', tr ++ new)) /\ incl new (map iv l).
Proof.
  induction l as [|i l IH]; intros done c ar tr; cbn [fold_left].
  - exists done, c, ar, []. rewrite app_nil_r. split; [reflexivity | intros v []].
  - unfold evaluate at 2. destruct (iobj i) as [o|].
    + destruct (IH (done ++ [i]) c ar tr) as (l' & c' & ar' & new & -> & H). do 4 eexists. split; [reflexivity|]. intros v Hv. right. auto.
    + destruct (match ar with Some m => lookup (iv i) m | None => None end) as [o|].
      * destruct (IH (done ++ [mk_indiv (iv i) (Some o)]) c ar tr) as (l' & c' & ar' & new & -> & H). do 4 eexists. split; [reflexivity|].
        intros v Hv. right. auto.
      * edestruct IH as (l' & c' & ar' & new & -> & H). rewrite <- app_assoc. do 4 eexists. split; [reflexivity|].
        intros v [<-|Hv]; [now left | right; auto].
Qed.

Section Driver.
  Variable P : params.
  Hypothesis box_ok : valid_box (p_dims P).
  Hypothesis trim_ok : forall v, in_box (p_dims P) v -> in_box (p_dims P) (p_trim P v).
  Hypothesis trim_idem : forall v, p_trim P (p_trim P v) = p_trim P v.
  Hypothesis f_dim : forall v, length (p_f P v) = p_m P.
  Hypothesis m_pos : 1 <= p_m P.
  Hypothesis eps_pos : (0 < p_epsilon P)%Z.
  Hypothesis iter_ok : forall x l, Permutation (p_iter P x l) l.

  Definition settled (i : indiv) : Prop := fine P i /\ p_trim P (iv i) = iv i.

  Definition n3_ok (n : nat) (s : n3_state) : Prop :=
    Forall settled (n3_individuals s) /\ length (n3_individuals s) = n /\ n3_size s = n /\
    length (n3_refs s) = n /\ Forall (on_simplex (p_m P)) (n3_refs s) /\
    best_point Z.le (p_m P) (map (p_f P) (n3_seen s)) (n3_ideal s) /\
    (forall i, In i (n3_individuals s) -> In (iv i) (n3_seen s)) /\
    fine_context P (n3_context s) /\ incl (snd (n3_context s)) (n3_seen s) /\
    (snd (fst (n3_context s)) = None -> incl (n3_seen s) (snd (n3_context s))) /\
    Forall (in_box (p_dims P)) (n3_seen s).

  (** An offspring individual: if its objectives are set, its vector is that of a parent. *)
  Definition newborn (inds : list indiv) (i : indiv) : Prop :=
    in_box (p_dims P) (iv i) /\ p_trim P (iv i) = iv i /\ cached_ok P i /\
    (iobj i <> None -> exists p, In p inds /\ iv i = iv p).

  Lemma make_pair_ok D (inds : list indiv) k : Forall settled inds ->
    fst (n3_pick D k) < length inds -> snd (n3_pick D k) < length inds ->
    exists a b, make_pair P D inds k = Some [a; b] /\
      forall c, c = a \/ c = b -> newborn inds (mk_indiv (p_trim P (v3 c)) (objs3 c)).
  Proof.
    intros HS Ha Hb. unfold make_pair.
    destruct (nth_error inds (fst (n3_pick D k))) as [pa|] eqn:Ea; [|apply nth_error_None in Ea; lia].
    destruct (nth_error inds (snd (n3_pick D k))) as [pb|] eqn:Eb; [|apply nth_error_None in Eb; lia].
    apply nth_error_In in Ea, Eb. rewrite Forall_forall in HS.
    destruct (HS pa Ea) as ((Ba & Oa) & Ta). destruct (HS pb Eb) as ((Bb & Ob) & Tb).
    destruct (nsgaiii_sbx_ok (p_raw_a P) (p_raw_b P) (n3_skip D k) (n3_rand D k) (n3_swap D k) (p_half P) (p_epsilon P)
                (n3_r0 D k) (p_crossover_rate P) (mk3 (iv pa) (iobj pa)) (mk3 (iv pb) (iobj pb)) (p_dims P))
      as (ca & cb & -> & B1 & B2 & C1 & C2);
      [lia | exact box_ok | exact Ba | exact Bb | cbn [objs3]; congruence | cbn [objs3]; congruence |].
    assert (M : forall (p : indiv) c sel rnd, In p inds -> in_box (p_dims P) (v3 c) -> (objs3 c <> None -> c = mk3 (iv p) (iobj p)) ->
              exists r, polynomial_mutation (p_raw P) sel rnd (p_mutation_rate P) (p_dims P) c = Some r /\
                        newborn inds (mk_indiv (p_trim P (v3 r)) (objs3 r))).
    { intros p c sel rnd Hp Bc Hc. destruct (HS p Hp) as ((Bp & Op) & Tp).
      destruct (polynomial_mutation_ok (p_raw P) sel rnd (p_mutation_rate P) (p_dims P) c box_ok Bc)
        as (r & Er & Br & _ & H1 & H2). exists r. split; [exact Er|].
      assert (K : objs3 r <> None -> v3 r = iv p /\ objs3 r = iobj p).
      { intros Hr. destruct H2 as [H2|H2]; [congruence|]. rewrite H2 in Hr. specialize (Hc Hr). subst c. cbn [v3 objs3] in *.
        split; [|exact H2]. destruct (list_eq_dec Z.eq_dec (v3 r) (iv p)) as [E|E]; [exact E|]. specialize (H1 E). congruence. }
      unfold newborn. cbn [iv iobj]. split; [now apply trim_ok|]. split; [apply trim_idem|]. split.
      - unfold cached_ok. cbn [iv iobj]. destruct (objs3 r) as [o|] eqn:Eo; [|now left]. right.
        destruct (K ltac:(congruence)) as (-> & ->). rewrite Tp. exact Op.
      - intros Hr. exists p. split; [exact Hp|]. destruct (K Hr) as (-> & _). exact Tp. }
    destruct (M pa ca (n3_sel_a D k) (n3_rnd_a D k) Ea B1 C1) as (a & -> & Na).
    destruct (M pb cb (n3_sel_b D k) (n3_rnd_b D k) Eb B2 C2) as (b & -> & Nb).
    exists a, b. split; [reflexivity|]. intros c [-> | ->]; assumption.
  Qed.

  Definition good_picks (n : nat) (D : n3_draws) : Prop :=
    (forall k, k < n / 2 -> fst (n3_pick D k) < n /\ snd (n3_pick D k) < n) /\ is_sample (n3_sample D).

  Lemma make_offspring_ok D (inds : list indiv) n : length inds = n -> good_picks n D -> Forall settled inds ->
    exists offspring, make_offspring P D n inds = Some offspring /\ length offspring = 2 * (n / 2) /\
      Forall (newborn inds) offspring.
  Proof.
    intros HL (HG & _) HS. unfold make_offspring.
    assert (K : forall k, In k (seq 0 (n / 2)) -> exists a b, make_pair P D inds k = Some [a; b] /\
              forall c, c = a \/ c = b -> newborn inds (mk_indiv (p_trim P (v3 c)) (objs3 c))).
    { intros k Hk. rewrite in_seq in Hk. destruct (HG k ltac:(lia)) as (G1 & G2). apply make_pair_ok; [exact HS | lia | lia]. }
    cut (exists offspring, match comprehension (make_pair P D inds) (seq 0 (n / 2)) with None => None
           | Some pairs => Some (map (fun c => mk_indiv (p_trim P (v3 c)) (objs3 c)) (concat pairs)) end = Some offspring /\
           length offspring = 2 * length (seq 0 (n / 2)) /\ Forall (newborn inds) offspring); [now rewrite seq_length|].
    induction (seq 0 (n / 2)) as [|k l IH]; cbn [comprehension].
    - exists []. split; [reflexivity|]. split; [reflexivity | constructor].
    - destruct (K k (or_introl eq_refl)) as (a & b & -> & Hab).
      destruct IH as (off & E & L & F); [intros; apply K; now right|].
      destruct (comprehension (make_pair P D inds) l) as [pairs|]; [|discriminate].
      injection E as <-. eexists. split; [reflexivity|]. cbn [concat app map length] in *. split; [lia|].
      constructor; [apply Hab; auto|]. constructor; [apply Hab; auto | exact F].
  Qed.

  Lemma update_ok (inds0 : list indiv) ideal seen ctx (l : list indiv) :
    Forall (newborn inds0) l -> best_point Z.le (p_m P) (map (p_f P) seen) ideal -> fine_context P ctx ->
    incl (snd ctx) seen -> (snd (fst ctx) = None -> incl seen (snd ctx)) ->
    (forall p, In p inds0 -> In (iv p) seen) ->
    exists l' ctx' ideal', update_ideal_point P ideal ctx l = Some (l', ctx', ideal') /\
      Forall2 (fun i i' => iv i' = iv i) l l' /\ Forall settled l' /\ fine_context P ctx' /\
      best_point Z.le (p_m P) (map (p_f P) (seen ++ map iv l')) ideal' /\
      incl (snd ctx') (seen ++ map iv l') /\
      (snd (fst ctx') = None -> incl (seen ++ map iv l') (snd ctx')).
  Proof.
    intros HN HB (HC1 & HC2) HI HI' HP. destruct ctx as [[c ar] tr]. cbn [fst snd] in *. unfold update_ideal_point.
    destruct (evaluate_run P l [] c ar tr HC2) as (l' & new & ar' & Er & HR & Har & Hno & Hyes).
    { eapply Forall_impl; [|exact HN]. unfold newborn. tauto. }
    destruct (evaluate_trace P l [] c ar tr) as (l9 & c9 & ar9 & new' & Er' & NEW).
    rewrite Er in Er'. injection Er' as _ _ _ Et. apply app_inv_head in Et. subst new'.
    rewrite Er. cbn [app]. rewrite Forall_forall in HN. pose proof HR as HR'. apply Forall2_nth_error in HR'. destruct HR' as (HL & HR').
    assert (HS : Forall settled l').
    { apply Forall_forall. intros y Hy. apply In_nth_error in Hy. destruct Hy as (j & Hj).
      destruct (nth_error l j) as [x|] eqn:Ex; [|apply nth_error_None in Ex; apply nth_error_Some' in Hj; lia].
      destruct (HR' j x y Ex Hj) as (V & O). destruct (HN x) as (B & T & _); [eapply nth_error_In; eauto|].
      split; [split|]; congruence. }
    assert (EO : map objs l' = map (p_f P) (map iv l')).
    { rewrite map_map. apply map_ext_in. intros i Hi. rewrite Forall_forall in HS. destruct (HS i Hi) as (Hf & _). now apply fine_objs. }
    assert (EV : map iv l' = map iv l).
    { clear - HR. induction HR as [|x0 y0 l0 l1 (V & _) HR IH]; cbn; congruence. }
    destruct (along_best (fun o x => (o <? x)%Z) Z.le lower_ok Z.le_refl Z.le_trans (p_m P) l' (map (p_f P) seen) ideal HB) as (ideal' & EI & HB').
    { intros i Hi. rewrite Forall_forall in HS. destruct (HS i Hi) as (Hf & _). rewrite (fine_objs P i Hf). apply f_dim. }
    unfold lower. rewrite EI. exists l', (c + length new, ar', tr ++ new), ideal'. split; [reflexivity|].
    split; [eapply Forall2_impl; [|exact HR]; cbn; tauto|]. split; [exact HS|].
    split; [split; cbn [fst snd]; [rewrite app_length; lia | exact Har]|].
    split; [rewrite map_app, <- EO; exact HB'|]. cbn [fst snd].
    split.
    - intros v Hv. apply in_app_or in Hv. apply in_or_app. destruct Hv as [Hv|Hv]; [left; auto | right; rewrite EV; auto].
    - intros Hn v Hv. apply in_or_app. apply in_app_or in Hv.
      assert (ar = None) as ->. { destruct ar as [m|]; [|reflexivity]. destruct (Hyes m eq_refl) as (m' & -> & _). discriminate. }
      destruct (Hno eq_refl) as (_ & ->). destruct Hv as [Hv|Hv]; [left; apply HI'; auto|]. rewrite EV in Hv.
      apply in_map_iff in Hv. destruct Hv as (i & <- & Hi). destruct (iobj i) as [o|] eqn:Eo.
      + left. apply HI'; [reflexivity|]. destruct (HN i Hi) as (_ & _ & _ & Hp). destruct (Hp ltac:(congruence)) as (p & Hp1 & ->). auto.
      + right. apply in_map. unfold unevaluated. apply filter_In. rewrite Eo. auto.
  Qed.

  Lemma Forall2_of_map {A B} (Q : A -> B -> Prop) l l' j x (d : B) : Forall2 Q l l' -> nth_error l j = Some x -> Q x (nth j l' d).
  Proof.
    intros H Hj. apply Forall2_nth_error in H. destruct H as (L & H).
    destruct (nth_error l' j) as [y|] eqn:E; [|apply nth_error_None in E; apply nth_error_Some' in Hj; lia].
    rewrite (nth_error_nth _ _ _ E). eauto.
  Qed.

  (** ---- a driver whose individuals come and go between its steps ---- *)
  Definition n3_open (n : nat) (s : n3_state) : Prop :=
    Forall settled (n3_individuals s) /\ length (n3_individuals s) = n /\ n3_size s = n /\
    length (n3_refs s) = n /\ Forall (on_simplex (p_m P)) (n3_refs s) /\
    best_point Z.le (p_m P) (map (p_f P) (n3_seen s)) (n3_ideal s) /\ fine_context P (n3_context s).

  Lemma n3_ok_open n s : n3_ok n s -> n3_open n s.
  Proof. intros (I1 & I2 & I3 & I4 & I5 & I6 & I7 & I8 & I9). unfold n3_open. repeat (split; [assumption|]). exact I8. Qed.

  Lemma update_open (inds0 : list indiv) ideal seen ctx (l : list indiv) :
    Forall (newborn inds0) l -> best_point Z.le (p_m P) (map (p_f P) seen) ideal -> fine_context P ctx ->
    exists l' ctx' ideal', update_ideal_point P ideal ctx l = Some (l', ctx', ideal') /\
      Forall2 (fun i i' => iv i' = iv i) l l' /\ Forall settled l' /\ fine_context P ctx' /\
      best_point Z.le (p_m P) (map (p_f P) (seen ++ map iv l')) ideal' /\
      (snd (fst ctx) = None -> snd (fst ctx') = None /\ fst (fst ctx') <= fst (fst ctx) + length l).
  Proof.
    intros HN HB (HC1 & HC2). destruct ctx as [[c ar] tr]. cbn [fst snd] in *. unfold update_ideal_point.
    destruct (evaluate_run P l [] c ar tr HC2) as (l' & new & ar' & Er & HR & Har & Hno & Hyes).
    { eapply Forall_impl; [|exact HN]. unfold newborn. tauto. }
    rewrite Er. cbn [app]. rewrite Forall_forall in HN. pose proof HR as HR'. apply Forall2_nth_error in HR'. destruct HR' as (HL & HR').
    assert (HS : Forall settled l').
    { apply Forall_forall. intros y Hy. apply In_nth_error in Hy. destruct Hy as (j & Hj).
      destruct (nth_error l j) as [x|] eqn:Ex; [|apply nth_error_None in Ex; apply nth_error_Some' in Hj; lia].
      destruct (HR' j x y Ex Hj) as (V & O). destruct (HN x) as (B & T & _); [eapply nth_error_In; eauto|].
      split; [split|]; congruence. }
    assert (EO : map objs l' = map (p_f P) (map iv l')).
    { rewrite map_map. apply map_ext_in. intros i Hi. rewrite Forall_forall in HS. destruct (HS i Hi) as (Hf & _). now apply fine_objs. }
    destruct (along_best (fun o x => (o <? x)%Z) Z.le lower_ok Z.le_refl Z.le_trans (p_m P) l' (map (p_f P) seen) ideal HB) as (ideal' & EI & HB').
    { intros i Hi. rewrite Forall_forall in HS. destruct (HS i Hi) as (Hf & _). rewrite (fine_objs P i Hf). apply f_dim. }
    unfold lower. rewrite EI. exists l', (c + length new, ar', tr ++ new), ideal'. split; [reflexivity|].
    split; [eapply Forall2_impl; [|exact HR]; cbn; tauto|]. split; [exact HS|].
    split; [split; cbn [fst snd]; [rewrite app_length; lia | exact Har]|].
    split; [rewrite map_app, <- EO; exact HB'|]. cbn [fst snd].
    intros ->. destruct (Hno eq_refl) as (-> & ->). split; [reflexivity|]. unfold unevaluated. rewrite map_length.
    match goal with |- _ + length (filter ?g l) <= _ => pose proof (filter_length_le g l) end. lia.
  Qed.

  Lemma n3_open_step theta n D s : 2 <= n -> good_picks n D -> n3_open n s ->
    exists s', n3_step P theta (2 * n) D s = Done s' /\ n3_open n s' /\
      (snd (fst (n3_context s)) = None -> snd (fst (n3_context s')) = None /\ fst (fst (n3_context s')) <= fst (fst (n3_context s)) + 2 * (n / 2)).
  Proof.
    intros Hn HG (HI & HL & HZ & LR & HR & HB & HC). pose proof HG as (_ & HSm).
    destruct (make_offspring_ok D (n3_individuals s) n HL HG HI) as (off & EO & LO & NO).
    destruct (update_open (n3_individuals s) (n3_ideal s) (n3_seen s) (n3_context s) off NO HB HC)
      as (off' & ctx & ideal & EU & VU & SU & CU & BU & KU).
    assert (LO' : length off' = 2 * (n / 2)) by (apply Forall2_length' in VU; lia).
    assert (Hdiv : 1 <= n / 2) by (apply (Nat.div_le_mono 2 n 2); lia).
    set (pop := off' ++ n3_individuals s).
    assert (SP : Forall settled pop) by (apply Forall_app; auto).
    assert (DP : all_dim (p_m P) objs pop).
    { intros i Hi. rewrite Forall_forall in SP. destruct (SP i Hi) as (Hf & _). rewrite (fine_objs P i Hf). apply f_dim. }
    destruct (normalize_runs (p_epsilon P) (p_m P) ideal pop (map (p_f P) (n3_seen s ++ map iv off')) eps_pos DP BU) as (ns & EN & HN).
    { destruct off' as [|i off'']; [change (length (@nil indiv)) with 0 in LO'; lia|]. exists i. split; [now left|].
      inversion SU as [|? ? (Hf & _) _]; subst. rewrite (fine_objs P i Hf). apply in_map, in_or_app. right. now left. }
    assert (CK : exists cs, clustering (n3_refs s) ns = Some cs).
    { destruct (clustering_ok (n3_refs s) ns) as (cs & E & _); [|eauto]. intros X. rewrite X in LR. cbn in LR. lia. }
    destruct CK as (cs & EC).
    destruct (theta_fronts (fun i => fst (nth i cs (0%nat, 0%R)))
       (fun i => theta_fitness theta (n3_refs s) (nth i ns []) (nth i cs (0%nat, 0%R))) (p_iter P) (length pop) iter_ok) as (fronts & EF & (FP & FN & _)).
    assert (LP : length pop = 2 * (n / 2) + n) by (unfold pop; rewrite app_length; lia).
    destruct (create_final_ok (2 * n) (n3_sample D) n fronts (length pop) HSm FP FN) as (e & k & last & kept & EE & E2 & E3 & E4 & E5 & E6 & E7 & E8);
      [lia | pose proof (Nat.div_mod n 2 ltac:(lia)); lia |].
    unfold n3_step. rewrite HZ, EO, EU. fold pop. rewrite EN, EC. cbv zeta. rewrite EF, EE.
    eexists. split; [reflexivity|]. unfold n3_open. cbn [n3_individuals n3_size n3_refs n3_ideal n3_context n3_seen].
    split; [|rewrite <- LO; exact KU].
    assert (AT : forall i, In i e -> In (at_pos pop i) pop) by (intros i Hi; unfold at_pos; apply nth_In; auto).
    split; [rewrite Forall_map; apply Forall_forall; intros i Hi; rewrite Forall_forall in SP; auto|].
    split; [now rewrite map_length|]. repeat (split; [assumption || reflexivity|]). exact CU.
  Qed.

  (** Everything the step computes. *)
  Lemma n3_step_ok theta n D s : good_picks n D -> n3_ok n s ->
    exists offspring offspring' ctx ideal ns cs fronts,
      make_offspring P D (n3_size s) (n3_individuals s) = Some offspring /\
      length offspring = 2 * (n / 2) /\
      update_ideal_point P (n3_ideal s) (n3_context s) offspring = Some (offspring', ctx, ideal) /\
      length offspring' = 2 * (n / 2) /\ Forall settled offspring' /\
      let pop := offspring' ++ n3_individuals s in
      normalize (p_epsilon P) (p_m P) ideal pop = Some ns /\
      Forall2 (fun i v => length v = p_m P /\ Forall (fun x => (0 <= x < 1)%R) v) pop ns /\
      clustering (n3_refs s) ns = Some cs /\ length cs = length pop /\
      (forall i v, nth_error ns i = Some v -> exists c d r, nth_error cs i = Some (c, d) /\ nth_error (n3_refs s) c = Some r /\
         line_distance v r d /\ forall k r' d', nth_error (n3_refs s) k = Some r' -> line_distance v r' d' -> (d <= d')%R) /\
      fronts_by (fun x y => fst (nth x cs (0%nat, 0%R)) = fst (nth y cs (0%nat, 0%R)) /\
          (theta_fitness theta (n3_refs s) (nth x ns []) (nth x cs (0%nat, 0%R)) < theta_fitness theta (n3_refs s) (nth y ns []) (nth y cs (0%nat, 0%R)))%R)
        (length pop) fronts /\
      (2 <= n -> forall fuel, 2 * n <= fuel -> exists e k last kept,
         create_final_population fuel (n3_sample D) n fronts = Done e /\ length e = n /\ NoDup e /\ (forall i, In i e -> i < length pop) /\
         nth_error fronts k = Some last /\ e = concat (firstn k fronts) ++ kept /\ incl kept last /\
         length (concat (firstn k fronts)) <= n < length (concat (firstn k fronts)) + length last /\
         exists s', n3_step P theta fuel D s = Done s' /\ n3_individuals s' = map (at_pos pop) e /\ n3_ok n s' /\
           n3_seen s' = n3_seen s ++ map iv offspring') /\
      (n < 2 -> forall fuel, n3_step P theta fuel D s = OutOfFuel).
  Proof.
    intros HG (HI & HL & HZ & LR & HR & HB & HSn & HC & HT1 & HT2 & HX). pose proof HG as (_ & HSm).
    destruct (make_offspring_ok D (n3_individuals s) n HL HG HI) as (off & EO & LO & NO).
    destruct (update_ok (n3_individuals s) (n3_ideal s) (n3_seen s) (n3_context s) off NO HB HC HT1 HT2 HSn)
      as (off' & ctx & ideal & EU & VU & SU & CU & BU & TU1 & TU2).
    assert (LO' : length off' = 2 * (n / 2)) by (apply Forall2_length' in VU; lia).
    set (pop := off' ++ n3_individuals s).
    assert (SP : Forall settled pop) by (apply Forall_app; auto).
    assert (DP : all_dim (p_m P) objs pop).
    { intros i Hi. rewrite Forall_forall in SP. destruct (SP i Hi) as (Hf & _). rewrite (fine_objs P i Hf). apply f_dim. }
    destruct (normalize_ok (p_epsilon P) (p_m P) ideal pop (map (p_f P) (n3_seen s ++ map iv off')) eps_pos DP BU) as (ns & EN & HN).
    { intros i Hi. pose proof SP as SP'. rewrite Forall_forall in SP'. destruct (SP' i Hi) as (Hf & _). rewrite (fine_objs P i Hf). apply in_map.
      apply in_or_app. apply in_app_or in Hi. destruct Hi as [Hi|Hi]; [right; now apply in_map | left; auto]. }
    assert (CK : exists cs, clustering (n3_refs s) ns = Some cs /\
      Forall2 (fun v c => exists r, nth_error (n3_refs s) (fst c) = Some r /\ snd c = scalar_rejection v r (norm r) /\
         forall k r', nth_error (n3_refs s) k = Some r' -> (snd c <= scalar_rejection v r' (norm r'))%R) ns cs).
    { destruct (n3_refs s) as [|r0 refs] eqn:Er; [|apply clustering_ok; discriminate].
      cbn in LR. assert (pop = []) as Ep.
      { rewrite <- LR in LO', HL. cbn in LO'. apply length_zero_iff_nil in LO', HL. unfold pop. now rewrite LO', HL. }
      rewrite Ep in HN. inversion HN; subst. exists []. split; [reflexivity | constructor]. }
    destruct CK as (cs & EC & HC').
    assert (LD : forall v r, In v ns -> In r (n3_refs s) -> line_distance v r (scalar_rejection v r (norm r))).
    { intros v r Hv Hr. rewrite Forall_forall in HR. apply rejection_distance.
      - apply In_nth_error in Hv. destruct Hv as (j & Hj). apply Forall2_nth_error in HN. destruct HN as (LN & HN).
        destruct (nth_error pop j) as [i|] eqn:Ei; [|apply nth_error_None in Ei; apply nth_error_Some' in Hj; lia].
        destruct (HN j i v Ei Hj) as (-> & _). destruct (HR r Hr) as (-> & _). reflexivity.
      - eapply simplex_dot, HR, Hr. }
    destruct (theta_fronts (fun i => fst (nth i cs (0%nat, 0%R)))
       (fun i => theta_fitness theta (n3_refs s) (nth i ns []) (nth i cs (0%nat, 0%R))) (p_iter P) (length pop) iter_ok) as (fronts & EF & HF).
    pose proof HF as (FP & FN & _).
    exists off, off', ctx, ideal, ns, cs, fronts. rewrite HZ. split; [exact EO|]. split; [exact LO|]. split; [exact EU|]. split; [exact LO'|]. split; [exact SU|].
    fold pop. cbv zeta. split; [exact EN|]. split; [exact HN|]. split; [exact EC|].
    split; [apply Forall2_length' in HC', HN; congruence|]. split.
    { intros i v Hv. apply Forall2_nth_error in HC'. destruct HC' as (LC & HC').
      destruct (nth_error cs i) as [[c d]|] eqn:Ec; [|apply nth_error_None in Ec; apply nth_error_Some' in Hv; lia].
      destruct (HC' i v (c, d) Hv Ec) as (r & Hr & Ed & Hm). cbn [fst snd] in *.
      exists c, d, r. split; [reflexivity|]. split; [exact Hr|]. subst d. split; [apply LD; eapply nth_error_In; eauto|].
      intros k r' d' Hk Hd'. rewrite (line_distance_fun _ _ _ _ Hd' (LD v r' ltac:(eapply nth_error_In; eauto) ltac:(eapply nth_error_In; eauto))).
      eapply Hm; eauto. }
    split; [exact HF|].
    assert (LP : length pop = 2 * (n / 2) + n) by (unfold pop; rewrite app_length; lia).
    assert (ST : forall fuel, n3_step P theta fuel D s =
       match create_final_population fuel (n3_sample D) n fronts with
       | Raised => Raised | OutOfFuel => OutOfFuel
       | Done pos => Done {| n3_individuals := map (at_pos pop) pos; n3_size := n; n3_refs := n3_refs s;
                             n3_ideal := ideal; n3_context := ctx; n3_seen := n3_seen s ++ map iv off' |} end).
    { intros fuel. unfold n3_step. rewrite HZ, EO, EU. fold pop. rewrite EN, EC. cbv zeta. rewrite EF. reflexivity. }
    split.
    - intros Hn fuel Hf. assert (Hdiv : 1 <= n / 2) by (apply (Nat.div_le_mono 2 n 2); lia).
      destruct (create_final_ok fuel (n3_sample D) n fronts (length pop) HSm FP FN) as (e & k & last & kept & EE & E2 & E3 & E4 & E5 & E6 & E7 & E8);
        [lia | pose proof (Nat.div_mod n 2 ltac:(lia)); lia |].
      exists e, k, last, kept. split; [exact EE|]. do 7 (split; [assumption|]).
      rewrite ST, EE. eexists. split; [reflexivity|]. split; [reflexivity|]. split; [|reflexivity].
      unfold n3_ok. cbn [n3_individuals n3_size n3_refs n3_ideal n3_context n3_seen].
      assert (AT : forall i, In i e -> In (at_pos pop i) pop) by (intros i Hi; unfold at_pos; apply nth_In; auto).
      split; [rewrite Forall_map; apply Forall_forall; intros i Hi; rewrite Forall_forall in SP; auto|].
      split; [now rewrite map_length|]. split; [reflexivity|]. split; [exact LR|]. split; [exact HR|]. split; [exact BU|].
      split; [|split; [exact CU|split; [exact TU1|split; [exact TU2|]]]].
      + intros i Hi. apply in_map_iff in Hi. destruct Hi as (j & <- & Hj). specialize (AT j Hj). apply in_or_app.
        unfold pop in AT at 2. apply in_app_or in AT. destruct AT as [AT|AT]; [right; now apply in_map | left; auto].
      + apply Forall_app. split; [exact HX|]. rewrite Forall_map. eapply Forall_impl; [|exact SU]. intros i ((B & _) & _). exact B.
    - intros Hn fuel. rewrite ST. unfold create_final_population.
      rewrite (fill_hangs fronts n); [reflexivity | | reflexivity].
      rewrite (Permutation_length FP), seq_length, LP. rewrite Nat.div_small by exact Hn. lia.
  Qed.

  Lemma n3_steps_ok theta n fuel : 2 <= n -> 2 * n <= fuel -> forall Ds s, Forall (good_picks n) Ds -> n3_ok n s ->
    exists s', n3_steps P theta fuel Ds s = Done s' /\ n3_ok n s' /\
      length (n3_seen s') = length (n3_seen s) + length Ds * (2 * (n / 2)) /\
      exists more, n3_seen s' = n3_seen s ++ more.
  Proof.
    intros Hn Hf. induction Ds as [|D Ds IH]; intros s HD Hs; cbn [n3_steps length].
    - exists s. split; [reflexivity|]. split; [exact Hs|]. split; [lia|]. exists []. now rewrite app_nil_r.
    - inversion HD as [|? ? HD1 HD2]; subst.
      destruct (n3_step_ok theta n D s HD1 Hs) as (off & off' & ctx & ideal & ns & cs & fronts & _ & _ & _ & LO & _ & _ & _ & _ & _ & _ & _ & HS & _).
      destruct (HS Hn fuel Hf) as (e & k & last & kept & _ & _ & _ & _ & _ & _ & _ & _ & s1 & -> & _ & Ok1 & Es).
      destruct (IH s1 HD2 Ok1) as (s' & -> & Ok' & Ls & more & Em). exists s'. split; [reflexivity|]. split; [exact Ok'|].
      split; [rewrite Ls, Es, app_length, map_length, LO; lia|]. exists (map iv off' ++ more). rewrite Em, Es. now rewrite app_assoc.
  Qed.

  Lemma n3_init_ok rands ar population : (forall k i, (0 < rands k i < 1)%R) ->
    (forall m k o, ar = Some m -> lookup k m = Some o -> o = p_f P k) ->
    Forall (in_box (p_dims P)) population ->
    exists s, n3_init P rands ar population = Some s /\ n3_ok (length population) s /\ n3_seen s = map (p_trim P) population.
  Proof.
    intros Hr Har Hp. unfold n3_init. set (inds := map _ population).
    destruct (update_ok [] (repeat None (p_m P)) [] (0, ar, []) inds) as (inds' & ctx & ideal & -> & V & S & C & B & T1 & T2).
    - unfold inds. rewrite Forall_map. eapply Forall_impl; [|exact Hp]. intros v Hv. unfold newborn. cbn [iv iobj].
      split; [now apply trim_ok|]. split; [apply trim_idem|]. split; [now left | congruence].
    - exact (best_point_init Z.le (p_m P)).
    - split; [reflexivity | exact Har].
    - intros v [].
    - intros _ v [].
    - intros p [].
    - eexists. split; [reflexivity|].
      assert (L : length inds' = length population) by (apply Forall2_length' in V; unfold inds in V; rewrite map_length in V; lia).
      assert (EV : map iv inds' = map (p_trim P) population).
      { transitivity (map iv inds); [|unfold inds; rewrite map_map; reflexivity].
        clear - V. induction V; cbn; congruence. }
      split; [|exact EV]. unfold n3_ok. cbn [n3_individuals n3_size n3_refs n3_ideal n3_context n3_seen].
      split; [exact S|]. split; [exact L|]. split; [reflexivity|]. split; [rewrite map_length; apply seq_length|]. split.
      { rewrite Forall_map. apply Forall_forall. intros k _.
        destruct (reference_loop_ok (p_m P) (rands k) 0%R m_pos (Hr k) ltac:(lra)) as (R1 & R2 & R3).
        split; [exact R1|]. split; [eapply Forall_impl; [|exact R2]; cbn; intros; lra|]. unfold generate_reference_point. rewrite R3. lra. }
      split; [exact B|]. split; [intros i Hi; now apply in_map|]. split; [exact C|]. split; [exact T1|]. split; [exact T2|].
      rewrite EV, Forall_map. eapply Forall_impl; [|exact Hp]. exact trim_ok.
  Qed.
End Driver.
