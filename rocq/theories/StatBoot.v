(** Proofs about the bootstrap interval and the outlier analysis. *)
From Verif Require Import StatModel StatSpec StatProofs SortProofs Base.
From Coq Require Import Lqa Qround Qabs.
Local Open Scope Q_scope.

Lemma sample_ok randint data k : (forall j n, (randint j n <= n)%nat) -> data <> [] ->
  exists s, sample_wr randint data k = Some s /\ length s = k /\ (forall x, In x s -> In x data).
Proof.
  intros F N. unfold sample_wr.
  assert (forall js, exists s, sample_loop randint data js = Some s /\ length s = length js
                               /\ (forall x, In x s -> In x data)) as H.
  { induction js as [|j js (s & E & L & I)]; cbn [sample_loop].
    - exists []. repeat split; auto. intros x [].
    - destruct (nth_error data (randint j (length data - 1)%nat)) as [x|] eqn:Ex.
      + rewrite E. exists (x :: s). split; [reflexivity|]. split; [cbn; lia|].
        intros y [<-|Hy]; [eapply nth_error_In; eauto|auto].
      + apply nth_error_None in Ex. specialize (F j (length data - 1)%nat).
        destruct data; [congruence|cbn in *; lia]. }
  destruct (H (seq 0 k)) as (s & E & L & I). exists s. rewrite seq_length in L. auto.
Qed.

Lemma resample_ok randint data n k : fair randint -> data <> [] -> (1 <= k)%nat ->
  exists ms, resample_means randint data n k = Some (map Fin ms) /\ resampled data n k ms.
Proof.
  intros F N K. unfold resample_means.
  assert (forall is, exists ms, resample_loop randint data k is = Some (map Fin ms)
                                /\ resampled data (length is) k ms) as H.
  { induction is as [|i is (ms & E & samples & L & A)]; cbn [resample_loop].
    - exists []. split; [reflexivity|]. exists []. split; [reflexivity|constructor].
    - destruct (sample_ok (randint i) data k) as (s & Es & Ls & Is); [apply F|exact N|].
      rewrite Es, E. assert (s <> []) by (destruct s; [cbn in Ls; lia|congruence]).
      destruct (average_mean s) as (m & Em & M); [assumption|].
      exists (m :: ms). split; [cbn; rewrite Em; reflexivity|].
      exists (s :: samples). split; [cbn; lia|]. constructor; auto. }
  destruct (H (seq 0 n)) as (ms & E & R). rewrite seq_length in R. eauto.
Qed.

Lemma resample_empty randint data n : resample_means randint data n 0 = Some (repeat NegInf n).
Proof.
  unfold resample_means. transitivity (Some (repeat NegInf (length (seq 0 n)))).
  - induction (seq 0 n) as [|i is IH]; cbn [resample_loop]; [reflexivity|].
    unfold sample_wr. cbn [seq sample_loop]. rewrite IH. reflexivity.
  - rewrite seq_length. reflexivity.
Qed.

Lemma sort_map_fin ms : stable_sort ext_leb (map Fin ms) = map Fin (stable_sort Qle_bool ms).
Proof.
  unfold stable_sort. induction ms as [|m ms IH]; cbn [map fold_right]; [reflexivity|]. rewrite IH.
  generalize (fold_right (insert_by Qle_bool) [] ms). intros l.
  induction l as [|x l IHl]; cbn; [reflexivity|]. destruct (Qle_bool m x); cbn; [reflexivity|].
  rewrite IHl. reflexivity.
Qed.

Lemma sort_repeat n : stable_sort ext_leb (repeat NegInf n) = repeat NegInf n.
Proof.
  unfold stable_sort. induction n as [|n IH]; cbn [repeat fold_right]; [reflexivity|].
  rewrite IH. destruct n; reflexivity.
Qed.

Lemma int_of_spec v : 0 <= v ->
  inject_Z (Z.of_nat (int_of v)) <= v < inject_Z (Z.of_nat (int_of v)) + 1.
Proof.
  intros H. unfold int_of.
  assert (0 <= Qfloor v)%Z by (apply (Qfloor_resp_le 0 v); exact H).
  rewrite Z2Nat.id by assumption. split; [apply Qfloor_le|].
  pose proof (Qlt_floor v) as L. rewrite inject_Z_plus in L. exact L.
Qed.

Lemma inj_nat_lt i j : inject_Z (Z.of_nat i) < inject_Z (Z.of_nat j) + 1 -> (i <= j)%nat.
Proof.
  setoid_replace 1 with (inject_Z 1) by reflexivity. rewrite <- inject_Z_plus, <- Zlt_Qlt. lia.
Qed.

Lemma inj_nat_lt0 i j : inject_Z (Z.of_nat i) < inject_Z (Z.of_nat j) <-> (i < j)%nat.
Proof. rewrite <- Zlt_Qlt. lia. Qed.

Lemma position_ok v ms x : 0 <= v ->
  nth_error (stable_sort Qle_bool ms) (int_of v) = Some x -> position v ms x.
Proof.
  intros Hv Hx. set (a := stable_sort Qle_bool ms) in *. set (i := int_of v) in *.
  pose proof (stable_sort_perm Qle_bool ms) as P. fold a in P.
  pose proof (sorted_data ms) as S. fold a in S.
  pose proof (int_of_spec v Hv) as [I1 I2]. fold i in I1, I2.
  assert (Li : (i < length a)%nat) by (apply nth_error_Some; congruence).
  assert (Nx : nth i a 0 = x) by (apply nth_error_nth; exact Hx).
  split; [|split].
  - apply (Permutation_in _ P). eapply nth_error_In; eauto.
  - intros c Hc. assert (c <= i)%nat by (apply inj_nat_lt; lra).
    exists (firstn (Datatypes.S i) a), (skipn (Datatypes.S i) a).
    split; [rewrite firstn_skipn; exact P|]. split; [rewrite firstn_length; lia|].
    apply Forall_forall. intros y Hy. apply In_nth_error in Hy. destruct Hy as [k Hk].
    assert (k < length (firstn (Datatypes.S i) a))%nat as Lk by (apply nth_error_Some; congruence).
    rewrite firstn_length in Lk.
    rewrite <- (nth_error_app1 _ (skipn (Datatypes.S i) a)), firstn_skipn in Hk
      by (rewrite firstn_length; lia).
    apply (nth_error_nth _ _ 0) in Hk. rewrite <- Hk, <- Nx.
    apply sorted_nth; [exact S|lia].
  - intros c Hc. assert (i <= c)%nat by (apply inj_nat_lt; lra).
    exists (skipn i a), (firstn i a).
    split; [eapply Permutation_trans; [apply Permutation_app_comm|]; rewrite firstn_skipn; exact P|].
    apply Permutation_length in P. split; [rewrite skipn_length; lia|].
    apply Forall_forall. intros y Hy. apply In_nth_error in Hy. destruct Hy as [k Hk].
    assert (k < length (skipn i a))%nat as Lk by (apply nth_error_Some; congruence).
    rewrite skipn_length in Lk.
    assert (nth_error a (i + k) = Some y) as Hk'.
    { rewrite <- (firstn_skipn i a), nth_error_app2 by (rewrite firstn_length; lia).
      rewrite firstn_length. replace (i + k - Nat.min i (length a))%nat with k by lia. exact Hk. }
    clear Hk. rename Hk' into Hk.
    apply (nth_error_nth _ _ 0) in Hk. rewrite <- Hk, <- Nx. apply sorted_nth; [exact S|lia].
Qed.

Lemma data_range data : data <> [] ->
  exists lo hi, In lo data /\ In hi data /\ forall x, In x data -> lo <= x <= hi.
Proof.
  induction data as [|x [|y data] IH]; intros N; [congruence| |].
  - exists x, x. cbn. repeat split; auto; intuition (subst; lra).
  - destruct IH as (lo & hi & Hlo & Hhi & B); [congruence|].
    exists (if Qle_bool x lo then x else lo), (if Qle_bool hi x then x else hi).
    split; [destruct (Qle_bool x lo); [left|right]; auto|].
    split; [destruct (Qle_bool hi x); [left|right]; auto|].
    intros z Hz. pose proof (B lo Hlo). pose proof (B hi Hhi).
    assert (z = x \/ lo <= z <= hi) as C by (destruct Hz; [left; congruence|right; auto]).
    destruct (Qle_bool x lo) eqn:E1, (Qle_bool hi x) eqn:E2;
      rewrite ?Qle_bool_iff, ?Qle_bool_false in *; destruct C as [->|C]; split; lra.
Qed.

Lemma forall2_length {A B} (R : A -> B -> Prop) l l' : Forall2 R l l' -> length l = length l'.
Proof. induction 1; cbn; lia. Qed.

Lemma bootstrap_ok randint data n k alpha : fair randint -> data <> [] ->
  (1 <= n)%nat -> (1 <= k)%nat -> 0 < alpha -> alpha <= 1 # 2 ->
  exists lo hi m ms,
    bootstrap randint data n k alpha = Some {| b_from := Fin lo; b_to := Fin hi; b_metrics := Fin m |}
    /\ is_mean data m /\ resampled data n k ms
    /\ position (inject_Z (Z.of_nat n) * alpha) ms lo
    /\ position (inject_Z (Z.of_nat n) * (1 - alpha)) ms hi
    /\ lo <= hi
    /\ exists least most, In least data /\ In most data
         /\ (forall x, In x data -> least <= x <= most)
         /\ (forall x, In x ms -> least <= x <= most).
Proof.
  intros F N Hn Hk A1 A2.
  destruct (resample_ok randint data n k F N Hk) as (ms & E & R).
  destruct (average_mean data N) as (m & Em & M).
  assert (Lm : length ms = n).
  { destruct R as (ss & L & R). apply forall2_length in R. lia. }
  assert (Nn : 1 <= inject_Z (Z.of_nat n)).
  { setoid_replace 1 with (inject_Z 1) by reflexivity. rewrite <- Zle_Qle. lia. }
  set (nq := inject_Z (Z.of_nat n)) in *.
  assert (V1 : 0 <= nq * alpha) by (apply Qmult_le_0_compat; lra).
  assert (V2 : nq * alpha < nq).
  { apply Qlt_le_trans with (nq * 1); [apply Qmult_lt_l; lra|lra]. }
  assert (V3 : nq * alpha <= nq * (1 - alpha)).
  { rewrite !(Qmult_comm nq). apply Qmult_le_compat_r; lra. }
  assert (V4 : nq * (1 - alpha) < nq).
  { apply Qlt_le_trans with (nq * 1); [apply Qmult_lt_l; lra|lra]. }
  pose proof (int_of_spec _ V1) as [I1 I2].
  pose proof (int_of_spec (nq * (1 - alpha)) ltac:(lra)) as [J1 J2].
  set (i := int_of (nq * alpha)) in *. set (j := int_of (nq * (1 - alpha))) in *.
  assert (i < n)%nat by (apply inj_nat_lt0; fold nq; lra).
  assert (j < n)%nat by (apply inj_nat_lt0; fold nq; lra).
  assert (i <= j)%nat by (apply inj_nat_lt; lra).
  set (a := stable_sort Qle_bool ms).
  assert (La : length a = n) by (unfold a; rewrite stable_sort_length; exact Lm).
  assert (Ei : nth_error a i = Some (nth i a 0)) by (apply nth_error_nth'; lia).
  assert (Ej : nth_error a j = Some (nth j a 0)) by (apply nth_error_nth'; lia).
  exists (nth i a 0), (nth j a 0), m, ms.
  split; [|split; [exact M|split; [exact R|split; [|split; [|split]]]]].
  - unfold bootstrap. rewrite E. cbv zeta. rewrite sort_map_fin. fold a nq i j.
    rewrite !nth_error_map, Ei, Ej. cbn. rewrite Em. reflexivity.
  - apply position_ok; [exact V1|exact Ei].
  - apply position_ok; [lra|exact Ej].
  - apply sorted_nth; [apply sorted_data|]. lia.
  - destruct (data_range data N) as (lo & hi & Hlo & Hhi & B). exists lo, hi.
    split; [exact Hlo|]. split; [exact Hhi|]. split; [exact B|].
    destruct R as (ss & _ & R). clear - R B Hk. induction R as [|s x ss ms (L & I & Mx) R IH].
    + intros y [].
    + intros y [<-|Hy]; [|auto]. apply (mean_bounds s); [destruct s; [cbn in L; lia|congruence]|exact Mx|].
      intros z Hz. apply B, I, Hz.
Qed.

(** ** The outlier analysis *)

Lemma exactly_filter (f : Q -> bool) (P : Q -> Prop) data :
  (forall x, f x = true <-> P x) -> exactly (length (filter f data)) P data.
Proof.
  intros H. exists (filter f data), (filter (fun x => negb (f x)) data).
  split; [apply filter_partition_perm|]. split; [reflexivity|].
  split; apply Forall_forall; intros x Hx; apply filter_In in Hx; destruct Hx as [_ Hx].
  - apply H; exact Hx.
  - intros P'. apply H in P'. rewrite P' in Hx. discriminate.
Qed.

Lemma filter_length_diff {A} (f g : A -> bool) data :
  (forall x, g x = true -> f x = true) ->
  (length (filter f data) = length (filter g data) + length (filter (fun x => f x && negb (g x)) data))%nat.
Proof.
  intros H. induction data as [|x data IH]; [reflexivity|]. cbn [filter].
  destruct (g x) eqn:G; [rewrite (H x G)|destruct (f x)]; cbn [andb negb length]; lia.
Qed.

Lemma filter_length_compl {A} (f : A -> bool) data :
  (length data = length (filter f data) + length (filter (fun x => negb (f x)) data))%nat.
Proof.
  induction data as [|x data IH]; [reflexivity|]. cbn [filter].
  destruct (f x); cbn [negb length]; lia.
Qed.

Lemma bootstrap_some randint data n k : fair randint -> data <> [] -> (1 <= n)%nat ->
  exists b, bootstrap randint data n k (25 # 1000) = Some b /\ b_metrics b = average data.
Proof.
  intros F N Hn. destruct k as [|k].
  - unfold bootstrap. rewrite resample_empty. cbv zeta. rewrite sort_repeat.
    assert (forall v, 0 <= v -> v < inject_Z (Z.of_nat n) ->
              nth_error (repeat NegInf n) (int_of v) = Some NegInf) as H.
    { intros v V0 V. pose proof (int_of_spec v V0) as [I1 _].
      assert (int_of v < n)%nat by (apply inj_nat_lt0; lra).
      rewrite (nth_error_nth' _ NegInf) by (rewrite repeat_length; lia).
      f_equal. apply nth_repeat. }
    assert (Nn : 1 <= inject_Z (Z.of_nat n)).
    { setoid_replace 1 with (inject_Z 1) by reflexivity. rewrite <- Zle_Qle. lia. }
    rewrite !H by lra. eexists. split; reflexivity.
  - destruct (bootstrap_ok randint data n (S k) (25 # 1000)) as (lo & hi & m & ms & E & M & _);
      try assumption; try lia; try reflexivity; try (unfold Qle; cbn; lia).
    eexists. split; [exact E|]. cbn. destruct (average_mean data N) as (m' & Em & M').
    assert (average data = Fin m); [|congruence].
    unfold bootstrap in E. destruct (resample_means randint data n (S k)); [|discriminate].
    cbv zeta in E. destruct (nth_error _ _); [|discriminate]. destruct (nth_error _ _); [|discriminate].
    congruence.
Qed.

Lemma bootstrap_mean randint data n k alpha b : bootstrap randint data n k alpha = Some b ->
  b_metrics b = average data.
Proof.
  unfold bootstrap. destruct (resample_means randint data n k); [|discriminate].
  cbv zeta. destruct (nth_error _ _); [|discriminate]. destruct (nth_error _ _); [|discriminate].
  intros H. injection H as <-. reflexivity.
Qed.

Lemma analysis_some randint data n : fair randint -> data <> [] -> (1 <= n)%nat ->
  exists a, yield_analysis randint data n = Some a.
Proof.
  intros F N Hn. unfold yield_analysis.
  assert (forall p, exists q, percentile data p = Some q) as P.
  { intros p. destruct data as [|x data]; [congruence|]. eexists. reflexivity. }
  destruct (P 25%Z) as (q1 & ->). destruct (P 75%Z) as (q3 & ->). cbv zeta.
  destruct (bootstrap_some randint data n (int_of (qlen data * (66 # 100))) F N Hn) as (b & -> & _).
  destruct (average_mean data N) as (m & -> & _). eexists. reflexivity.
Qed.

(** What an analysis contains. *)
Lemma analysis_inv randint data n a : yield_analysis randint data n = Some a ->
  data <> [] /\
  exists q1 q3, percentile data 25 = Some q1 /\ percentile data 75 = Some q3
    /\ a_low_inn a = q1 - (3 # 2) * (q3 - q1) /\ a_upp_inn a = q3 + (3 # 2) * (q3 - q1)
    /\ a_low_out a = q1 - 3 * (q3 - q1) /\ a_upp_out a = q3 + 3 * (q3 - q1)
    /\ a_extr a = length (filter (fun x => Qlt_bool x (a_low_out a) || Qlt_bool (a_upp_out a) x)%bool data)
    /\ a_mild a = (Z.of_nat (length (filter (fun x => Qlt_bool x (a_low_inn a) || Qlt_bool (a_upp_inn a) x)%bool data)) - Z.of_nat (a_extr a))%Z
    /\ a_nooutliers a = average (filter (fun x => Qle_bool (a_low_inn a) x && Qle_bool x (a_upp_inn a))%bool data)
    /\ is_mean data (a_mean a)
    /\ a_variance a = qsum (map (fun x => (x - a_mean a) * (x - a_mean a)) data) / qlen data
    /\ a_good a = negb (Qlt_bool (qlen (filter (in_band (a_mean a) (a_variance a)) data)) ((95 # 100) * qlen data))
    /\ bootstrap randint data n (int_of (qlen data * (66 # 100))) (25 # 1000) = Some (a_btstrpd a)
    /\ b_metrics (a_btstrpd a) = Fin (a_mean a).
Proof.
  unfold yield_analysis. destruct (percentile data 25) as [q1|] eqn:E1; [|discriminate].
  destruct (percentile data 75) as [q3|] eqn:E3; [|discriminate]. cbv zeta.
  destruct (bootstrap _ _ _ _ _) as [b|] eqn:Eb; [|discriminate].
  destruct (average data) as [|m] eqn:Em; [discriminate|].
  intros H. injection H as <-. destruct (average_fin _ _ Em) as [N M].
  split; [exact N|]. exists q1, q3. cbn. do 11 (split; [try reflexivity; exact M|]).
  split; [reflexivity|]. split; [reflexivity|]. rewrite (bootstrap_mean _ _ _ _ _ _ Eb). exact Em.
Qed.
