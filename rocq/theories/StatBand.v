(** The three-sigma band of statistic/stats_bootstrap.py:99-113, over the reals. *)
From Verif Require Import StatModel StatSpec StatBandSpec StatProofs StatBoot SortProofs Base.
From Coq Require Import Reals Qreals Lra Lqa.

(** ** In rationals *)
Local Open Scope Q_scope.

Definition dev2 (m x : Q) : Q := (x - m) * (x - m).

Lemma sq_nonneg (x : Q) : 0 <= x * x.
Proof. unfold Qle, Qmult. cbn. nia. Qed.

Lemma total_app l l' : total (l ++ l') == total l + total l'.
Proof.
  unfold total. induction l as [|x l IH]; cbn [app fold_right]; [lra|]. rewrite IH. lra.
Qed.

Lemma size_app {A} (l l' : list A) : size (l ++ l') == size l + size l'.
Proof. induction l as [|x l IH]; cbn [app]; [change (size (@nil A)) with 0; lra|]. rewrite !size_cons, IH. lra. Qed.

Lemma total_dev2 m l : total (map (dev2 m) l) ==
  total (map (fun x => x * x) l) - 2 * m * total l + size l * (m * m).
Proof.
  induction l as [|x l IH]; [change (size (@nil Q)) with 0; cbn [map total fold_right]; lra|].
  rewrite size_cons. cbn [map total fold_right]. fold (total (map (dev2 m) l)). rewrite IH.
  unfold dev2. fold (total (map (fun x => x * x) l)). fold (total l).
  set (a := total _). set (b := total l). set (c := size l). clearbody a b c. lra.
Qed.

Lemma total_nonneg l : (forall x, In x l -> 0 <= x) -> 0 <= total l.
Proof.
  induction l as [|x l IH]; intros H; cbn [total fold_right]; [lra|].
  pose proof (H x (or_introl eq_refl)). pose proof (IH (fun y Hy => H y (or_intror Hy))) as P.
  unfold total in P. lra.
Qed.

Lemma dev2_total_nonneg m l : 0 <= total (map (dev2 m) l).
Proof.
  apply total_nonneg. intros x Hx. apply in_map_iff in Hx. destruct Hx as (y & <- & _). apply sq_nonneg.
Qed.

Lemma total_perm l l' : Permutation l l' -> total l == total l'.
Proof.
  induction 1 as [|x l l' P IH|x y l|l1 l2 l3 P1 IH1 P2 IH2];
    unfold total in *; cbn [fold_right]; try lra.
Qed.

(** The deviations of the other values. *)
Lemma samuelson data m v x : is_mean data m -> v * size data == total (map (dev2 m) data) ->
  In x data -> dev2 m x <= (size data - 1) * v.
Proof.
  intros M V Hx. apply in_split in Hx. destruct Hx as (l1 & l2 & E).
  assert (P : Permutation data (x :: l1 ++ l2)) by (rewrite E; symmetry; apply Permutation_middle).
  set (o := (l1 ++ l2)%list) in *. clearbody o. clear E l1 l2.
  assert (Sz : size data == size o + 1).
  { unfold size. rewrite (Permutation_length P). apply (size_cons x o). }
  pose proof (total_perm _ _ P) as T. cbn [total fold_right] in T. fold (total o) in T.
  pose proof (total_perm _ _ (Permutation_map (dev2 m) P)) as D. cbn [map total fold_right] in D.
  fold (total (map (dev2 m) o)) in D. fold (total (map (dev2 m) data)) in D.
  unfold is_mean in M. rewrite Sz in M, V |- *. rewrite D in V. fold (total data) in T. rewrite T in M.
  assert (So : total o - size o * m == - (x - m)) by lra.
  pose proof (size_nonneg o) as N0.
  destruct (Qeq_dec (size o) 0) as [Z|NZ].
  { rewrite Z in So |- *. assert (o = []) as ->.
    { destruct o; [reflexivity|]. exfalso. pose proof (size_pos (q :: o) ltac:(congruence)). lra. }
    cbn [total fold_right] in So. unfold dev2. setoid_replace (x - m) with 0 by lra. lra. }
  assert (Pn : 0 < size o) by (destruct (Qlt_le_dec 0 (size o)); [assumption|exfalso; apply NZ; lra]).
  set (d := x - m) in *. set (n := size o) in *.
  pose proof (dev2_total_nonneg (m - d / n) o) as C. rewrite total_dev2 in C.
  pose proof (total_dev2 m o) as C0.
  set (q := total (map (fun x0 : Q => x0 * x0) o)) in *. set (t := total o) in *.
  set (w := total (map (dev2 m) o)) in *. fold n in C, C0.
  assert (C1 : 0 <= w - d * d / n).
  { setoid_replace (w - d * d / n) with (q - 2 * (m - d / n) * t + n * ((m - d / n) * (m - d / n))); [exact C|].
    rewrite C0. setoid_replace t with (n * m - d) by lra. field. lra. }
  assert (C2 : d * d <= n * w).
  { apply (Qmult_le_compat_r _ _ n) in C1; [|lra].
    setoid_replace ((w - d * d / n) * n) with (n * w - d * d) in C1 by (field; lra). lra. }
  unfold dev2 in V |- *. fold d in V |- *. set (dd := d * d) in *. clearbody dd w n.
  clear - V C2 Pn.
  (* v (n+1) = dd + w, dd <= n w *)
  setoid_replace (n + 1 - 1) with n by lra.
  apply Qmult_le_r with (z := n + 1); [lra|].
  setoid_replace (n * v * (n + 1)) with (n * (v * (n + 1))) by ring. rewrite V.
  setoid_replace (n * (dd + w)) with (n * dd + n * w) by ring. lra.
Qed.

Lemma variance_eq data v m : data <> [] ->
  v = qsum (map (fun x => (x - m) * (x - m)) data) / qlen data ->
  v * size data == total (map (dev2 m) data).
Proof.
  intros N ->. rewrite qsum_total. change (qlen data) with (size data). pose proof (size_pos data N).
  unfold dev2. field. lra.
Qed.

(** Few values lie outside the band. *)
Lemma outside_sum m v l : (forall x, In x l -> 9 * v < dev2 m x) -> l <> [] ->
  9 * v * size l < total (map (dev2 m) l).
Proof.
  induction l as [|x [|y l] IH]; intros H N; [congruence| |].
  - change (size [x]) with 1. cbn [map total fold_right]. pose proof (H x (or_introl eq_refl)). lra.
  - rewrite size_cons. set (l' := y :: l) in *. cbn [map total fold_right]. fold (total (map (dev2 m) l')).
    pose proof (H x (or_introl eq_refl)).
    assert (9 * v * size l' < total (map (dev2 m) l')).
    { apply IH; [intros z Hz; apply H; right; exact Hz|unfold l'; congruence]. }
    lra.
Qed.

Lemma few_outside data m v k : data <> [] -> v * size data == total (map (dev2 m) data) ->
  exactly k (fun x => 9 * v < dev2 m x) data -> (k = 0 \/ 9 * k < length data)%nat.
Proof.
  intros N V (yes & no & P & L & Y & _). destruct yes as [|x yes']; [left; cbn in L; lia|right].
  set (yes := x :: yes') in *. rewrite Forall_forall in Y.
  pose proof (outside_sum m v yes Y ltac:(unfold yes; congruence)) as O.
  pose proof (total_perm _ _ (Permutation_map (dev2 m) P)) as T. rewrite map_app, total_app in T.
  pose proof (dev2_total_nonneg m no) as Pn.
  assert (Q : 9 * v * size yes < v * size data) by lra.
  pose proof (size_pos data N) as Ps.
  assert (v0 : 0 < v).
  { destruct (Qlt_le_dec 0 v) as [H|H]; [exact H|exfalso].
    assert (0 <= v).
    { pose proof (dev2_total_nonneg m data) as D. rewrite <- V in D.
      apply Qmult_le_r with (z := size data); [exact Ps|]. lra. }
    assert (v == 0) as Z by lra. rewrite Z in Q. lra. }
  assert (9 * size yes < size data) as R.
  { apply Qmult_lt_l with (z := v); [exact v0|]. lra. }
  assert (size yes == inject_Z (Z.of_nat k)) as Sk by (unfold size; rewrite L; reflexivity).
  rewrite Sk in R. unfold size in R. setoid_replace 9 with (inject_Z 9) in R by reflexivity.
  rewrite <- inject_Z_mult, <- Zlt_Qlt in R. lia.
Qed.

(** ** The real band is the rational one *)

Lemma Q2R_total l : Q2R (total l) = fold_right Rplus 0%R (map Q2R l).
Proof.
  induction l as [|x l IH]; cbn [map total fold_right]; [unfold Q2R; cbn; Lra.lra|].
  rewrite Q2R_plus. fold (total l). rewrite IH. reflexivity.
Qed.

Lemma Q2R_size {A} (l : list A) : Q2R (size l) = INR (length l).
Proof. unfold size, Q2R, inject_Z. cbn [Qnum Qden]. rewrite INR_IZR_INZ, Rinv_1. Lra.lra. Qed.

Lemma mean_real data m : data <> [] -> is_mean data m -> Q2R m = real_mean data.
Proof.
  intros N M. unfold is_mean in M. apply Qeq_eqR in M. rewrite Q2R_mult, Q2R_total, Q2R_size in M.
  unfold real_mean. rewrite <- M. field. apply not_0_INR. destruct data; [congruence|discriminate].
Qed.

Lemma stdev_real data m v : data <> [] -> is_mean data m ->
  v * size data == total (map (dev2 m) data) ->
  (0 <= Q2R v)%R /\ real_stdev data = sqrt (Q2R v).
Proof.
  intros N M V. pose proof (mean_real data m N M) as Em.
  assert (0 < INR (length data))%R as P.
  { apply lt_0_INR. destruct data; [congruence|cbn; lia]. }
  apply Qeq_eqR in V as V'. rewrite Q2R_mult, Q2R_total, Q2R_size, map_map in V'.
  assert (Q : fold_right Rplus 0%R (map (fun x => Q2R (dev2 m x)) data)
              = fold_right Rplus 0%R (map (fun x => Rsqr (Q2R x - real_mean data)) data)).
  { f_equal. apply map_ext. intros x. unfold dev2, Rsqr. rewrite Q2R_mult, Q2R_minus, Em. reflexivity. }
  rewrite Q in V'. split.
  - assert (0 <= v) as H.
    { pose proof (dev2_total_nonneg m data) as D. rewrite <- V in D.
      apply Qmult_le_r with (z := size data); [apply size_pos; exact N|]. lra. }
    apply Qle_Rle in H. unfold Q2R at 1 in H. cbn in H. Lra.lra.
  - unfold real_stdev. rewrite <- V'. f_equal. field. Lra.lra.
Qed.

Lemma far_iff data m v x : data <> [] -> is_mean data m ->
  v * size data == total (map (dev2 m) data) -> (far data x <-> 9 * v < dev2 m x).
Proof.
  intros N M V. destruct (stdev_real data m v N M V) as [Pv Es].
  pose proof (mean_real data m N M) as Em. unfold far. rewrite <- Em, Es.
  assert (Dx : Q2R (dev2 m x) = ((Q2R x - Q2R m) * (Q2R x - Q2R m))%R).
  { unfold dev2. rewrite Q2R_mult, Q2R_minus. reflexivity. }
  assert (D9 : Q2R (9 * v) = (9 * Q2R v)%R).
  { rewrite Q2R_mult. f_equal. unfold Q2R. cbn. Lra.lra. }
  pose proof (sqrt_sqrt _ Pv) as S. pose proof (sqrt_pos (Q2R v)) as P0.
  set (s := sqrt (Q2R v)) in *. set (y := Q2R x) in *. set (mu := Q2R m) in *.
  split.
  - intros H. apply Rlt_Qlt. rewrite Dx, D9, <- S. fold y mu.
    destruct H as [H|H]; Lra.nra.
  - intros H. apply Qlt_Rlt in H. rewrite Dx, D9, <- S in H. fold y mu in H.
    destruct (Rlt_dec y (mu - 3 * s)) as [A|A]; [left; exact A|].
    destruct (Rlt_dec (mu + 3 * s) y) as [B|B]; [right; exact B|]. exfalso.
    assert (-(3 * s) <= y - mu <= 3 * s)%R as [H1 H2] by (split; Lra.lra).
    assert ((y - mu) * (y - mu) <= (3 * s) * (3 * s))%R; [|Lra.lra].
    assert (0 <= (3 * s - (y - mu)) * (3 * s + (y - mu)))%R by (apply Rmult_le_pos; Lra.lra). Lra.lra.
Qed.
