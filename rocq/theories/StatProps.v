(** The claims about the statistics: C70, C71, C72, C73, C106, C107. *)
From Verif Require Import StatModel StatSpec StatBandSpec StatProofs StatBoot StatRank StatTable StatBand
  SortProofs Base.
From Coq Require Import Lqa.
Local Open Scope Q_scope.

(** ** C70 *)

(** The accepted result is the last one whose mean cost is at most 500 above the largest budget;
    [None] exactly if there is none; what is left to read of it are the metrics after the cost. *)
Theorem C70_acceptable : forall boot_size call randint c results,
  (1 <= boot_size)%nat -> (forall k, fair (randint k)) ->
  results <> [] -> (forall r, In r results -> fresh r) ->
  (find_acceptable boot_size call randint c results = Some None
   /\ forall b r, last_budget results b -> In r results -> ~ affordable (b + 500) r)
  \/ (exists r costs rest, accepted results r /\ r_analysis r = ("cost"%string, costs) :: rest
        /\ find_acceptable boot_size call randint c results
           = Some (Some {| r_budget := r_budget r; r_analysis := rest |})).
Proof. intros. apply find_ok; assumption. Qed.
Print Assumptions C70_acceptable.

(** In a list sorted by budget it has the largest budget among the affordable ones. *)
Theorem C70_largest : forall results r b,
  StronglySorted (fun x y => r_budget x <= r_budget y) results ->
  accepted results r -> last_budget results b ->
  forall r', In r' results -> affordable (b + 500) r' -> r_budget r' <= r_budget r.
Proof.
  intros results r b S (b' & before & after & L & E & A & F) LB r' Hr' A'.
  assert (b = b') as ->.
  { destruct LB as (x & u & -> & <-), L as (x' & u' & E2 & <-).
    apply app_inj_tail in E2. destruct E2 as [_ ->]. reflexivity. }
  rewrite E in Hr', S. apply in_app_or in Hr'. destruct Hr' as [H|[<-|H]].
  - apply (StronglySorted_app_inv _ _ _ S r' r H). left. reflexivity.
  - apply Qle_refl.
  - exfalso. rewrite Forall_forall in F. apply (F r' H A').
Qed.
Print Assumptions C70_largest.

(** For an algorithm without any stored budget the answer is not None but an exception, which
    ends the whole ranking. *)
Theorem C70_no_results_refuted : forall boot_size call randint c,
  find_acceptable boot_size call randint c [] = None.
Proof. reflexivity. Qed.
Print Assumptions C70_no_results_refuted.

Definition always0 : nat -> nat -> nat -> nat := fun _ _ _ => 0%nat.
Lemma always0_fair : fair always0.
Proof. intros i j n. unfold always0. lia. Qed.

Definition res (b : Q) (costs hv : list Q) : result :=
  {| r_budget := b; r_analysis := [("cost"%string, costs); ("hypervolume"%string, hv)] |}.

Lemma res_fresh b costs hv : costs <> [] -> hv <> [] -> fresh (res b costs hv).
Proof.
  intros N1 N2. split; [|split].
  - exists costs, [("hypervolume"%string, hv)]. reflexivity.
  - cbn. constructor; [intros [E|[]]; discriminate|constructor; [intros []|constructor]].
  - intros m d [E|[E|[]]]; injection E as <- <-; assumption.
Qed.

Example C70_example :
  find_acceptable 10 unit (fun _ => always0) (fun _ => tt)
    [res 1000 [1010; 1020] [3; 4]; res 2000 [2400; 2450] [5; 6]; res 3000 [3400; 3700] [7; 8]]
  = Some (Some {| r_budget := 2000; r_analysis := [("hypervolume"%string, [5; 6])] |}).
Proof. vm_compute. reflexivity. Qed.
Example C70_example_hypotheses :
  (forall k, fair ((fun _ : unit => always0) k))
  /\ forall r, In r [res 1000 [1010; 1020] [3; 4]; res 2000 [2400; 2450] [5; 6]] -> fresh r.
Proof.
  split; [intros _; apply always0_fair|].
  intros r [<-|[<-|[]]]; apply res_fresh; discriminate.
Qed.

(** ** C71 *)

(** [from] and [to] are the values at positions n*alpha and n*(1-alpha) of the sorted means of [n]
    samples of [k] data values; they are in order, both inside the range of the data; the
    reported value is the mean of all data. *)
Theorem C71_interval : forall randint data n k alpha,
  fair randint -> data <> [] -> (1 <= n)%nat -> (1 <= k)%nat -> 0 < alpha -> alpha <= 1 # 2 ->
  exists lo hi m ms,
    bootstrap randint data n k alpha = Some {| b_from := Fin lo; b_to := Fin hi; b_metrics := Fin m |}
    /\ is_mean data m /\ resampled data n k ms
    /\ position (inject_Z (Z.of_nat n) * alpha) ms lo
    /\ position (inject_Z (Z.of_nat n) * (1 - alpha)) ms hi
    /\ lo <= hi
    /\ exists least most, In least data /\ In most data
         /\ (forall x, In x data -> least <= x <= most)
         /\ least <= lo /\ hi <= most.
Proof.
  intros randint data n k alpha F N Hn Hk A1 A2.
  destruct (bootstrap_ok randint data n k alpha F N Hn Hk A1 A2)
    as (lo & hi & m & ms & E & M & R & P1 & P2 & L & least & most & H1 & H2 & H3 & H4).
  exists lo, hi, m, ms. repeat (split; [assumption|]).
  exists least, most. repeat (split; [assumption|]).
  split; [apply H4, P1|apply H4, P2].
Qed.
Print Assumptions C71_interval.

(** The analysis of at least two runs has such an interval (95 per cent, samples of two thirds
    of the runs). *)
Theorem C71_analysis : forall randint data n,
  fair randint -> (2 <= length data)%nat -> (1 <= n)%nat ->
  exists a lo hi m, yield_analysis randint data n = Some a
    /\ a_btstrpd a = {| b_from := Fin lo; b_to := Fin hi; b_metrics := Fin m |}
    /\ is_mean data m /\ lo <= hi
    /\ exists least most, In least data /\ In most data
         /\ (forall x, In x data -> least <= x <= most) /\ least <= lo /\ hi <= most.
Proof.
  intros randint data n F L Hn.
  assert (N : data <> []) by (destruct data; [cbn in L; lia|congruence]).
  destruct (analysis_some randint data n F N Hn) as (a & E).
  destruct (analysis_inv _ _ _ _ E) as (_ & q1 & q3 & I).
  destruct I as (_ & _ & _ & _ & _ & _ & _ & _ & _ & _ & _ & _ & B & _).
  assert (K : (1 <= int_of (qlen data * (66 # 100)))%nat).
  { assert (2 <= qlen data).
    { unfold qlen. setoid_replace 2 with (inject_Z 2) by reflexivity. rewrite <- Zle_Qle. lia. }
    pose proof (int_of_spec (qlen data * (66 # 100)) ltac:(lra)) as [_ J].
    assert (inject_Z (Z.of_nat 1) < inject_Z (Z.of_nat (int_of (qlen data * (66 # 100)))) + 1).
    { change (inject_Z (Z.of_nat 1)) with 1. lra. }
    apply inj_nat_lt. assumption. }
  destruct (C71_interval randint data n _ (25 # 1000) F N Hn K ltac:(reflexivity) ltac:(unfold Qle; cbn; lia))
    as (lo & hi & m & ms & E' & M & _ & _ & _ & L' & R).
  exists a, lo, hi, m. split; [exact E|]. split; [congruence|]. auto.
Qed.
Print Assumptions C71_analysis.

(** With a single run the samples are empty and both ends are minus infinity, below all data. *)
Theorem C71_single_run_refuted : forall randint x n, fair randint -> (1 <= n)%nat ->
  exists a, yield_analysis randint [x] n = Some a
    /\ b_from (a_btstrpd a) = NegInf /\ b_to (a_btstrpd a) = NegInf.
Proof.
  intros randint x n F Hn. destruct (analysis_some randint [x] n F ltac:(congruence) Hn) as (a & E).
  exists a. split; [exact E|]. destruct (analysis_inv _ _ _ _ E) as (_ & q1 & q3 & I).
  destruct I as (_ & _ & _ & _ & _ & _ & _ & _ & _ & _ & _ & _ & B & _).
  change (int_of (qlen [x] * (66 # 100))) with 0%nat in B. unfold bootstrap in B.
  rewrite resample_empty in B. cbv zeta in B. rewrite sort_repeat in B.
  assert (forall i y, nth_error (repeat NegInf n) i = Some y -> y = NegInf) as H.
  { intros i y Hy. apply nth_error_In, repeat_spec in Hy. exact Hy. }
  destruct (nth_error _ _) as [u|] eqn:U; [|discriminate].
  destruct (nth_error (repeat NegInf n) (int_of (inject_Z (Z.of_nat n) * (1 - (25 # 1000))))) as [w|] eqn:W;
    [|discriminate].
  injection B as <-. cbn. split; eapply H; eauto.
Qed.
Print Assumptions C71_single_run_refuted.

Example C71_example : exists a,
  yield_analysis (fun i j n => (i + j) mod S n)%nat [1; 2; 3; 10] 40 = Some a
  /\ b_from (a_btstrpd a) = Fin (3 # 2) /\ b_to (a_btstrpd a) = Fin (13 # 2).
Proof.
  destruct (analysis_some (fun i j n => (i + j) mod S n)%nat [1; 2; 3; 10] 40) as (a & E).
  - intros i j n. pose proof (Nat.mod_upper_bound (i + j) (S n) ltac:(lia)). lia.
  - congruence.
  - lia.
  - exists a. split; [exact E|]. vm_compute in E; injection E as <-; vm_compute. split; reflexivity.
Qed.

(** ** C72 *)

(** With at least one value, one resample and a fair generator the analysis succeeds. *)
Theorem C72_never_fails : forall randint data n, fair randint -> data <> [] -> (1 <= n)%nat ->
  exists a, yield_analysis randint data n = Some a.
Proof. intros. apply analysis_some; assumption. Qed.
Print Assumptions C72_never_fails.

(** The fences are Tukey's fences around the quartiles and are nested. *)
Theorem C72_fences : forall randint data n a, yield_analysis randint data n = Some a ->
  exists q1 q3, quantile (1 # 4) data q1 /\ quantile (3 # 4) data q3 /\ q1 <= q3 /\ fences a q1 q3
    /\ a_low_out a <= a_low_inn a /\ a_low_inn a <= q1
    /\ q3 <= a_upp_inn a /\ a_upp_inn a <= a_upp_out a.
Proof.
  intros randint data n a H. destruct (analysis_inv _ _ _ _ H) as (N & q1 & q3 & E1 & E3 & F1 & F2 & F3 & F4 & _).
  exists q1, q3.
  assert (forall p p' q, p == p' -> quantile p data q -> quantile p' data q) as Qe.
  { intros p p' q Ep (l & P & S & G). exists l. split; [exact P|]. split; [exact S|]. cbv zeta in *.
    intros i x Hx Hi. rewrite <- Ep in Hi. destruct (G i x Hx Hi) as [G1 G2].
    split; [rewrite <- Ep; exact G1|]. intros y Hy. rewrite <- Ep. apply G2; exact Hy. }
  assert (L : q1 <= q3) by (apply (percentile_mono data 25 75 q1 q3); auto; lia).
  split; [apply (Qe (25 # 100)); [reflexivity|apply percentile_quantile; [lia|exact E1]]|].
  split; [apply (Qe (75 # 100)); [reflexivity|apply percentile_quantile; [lia|exact E3]]|].
  split; [exact L|]. unfold fences. rewrite F1, F2, F3, F4.
  split; [repeat split; reflexivity|]. repeat split; lra.
Qed.
Print Assumptions C72_fences.

(** The reported numbers count the extreme and the mild outliers; with the inliers they make up the
    data; there is at least one inlier; the outlier-free average is the mean of the inliers. *)
Theorem C72_counts : forall randint data n a, yield_analysis randint data n = Some a ->
  exists mild_count inliers m,
    a_mild a = Z.of_nat mild_count
    /\ exactly (a_extr a) (extreme a) data /\ exactly mild_count (mild a) data
    /\ selects (inlier a) data inliers
    /\ (a_extr a + mild_count + length inliers = length data)%nat
    /\ inliers <> [] /\ a_nooutliers a = Fin m /\ is_mean inliers m /\ inlier a m.
Proof.
  intros randint data n a H. destruct (C72_fences _ _ _ _ H) as (p1 & p3 & _ & _ & Lp & _ & O1 & O2 & O3 & O4).
  destruct (analysis_inv _ _ _ _ H) as (N & q1 & q3 & E1 & E3 & F1 & F2 & F3 & F4 & X & Mi & A & _).
  set (fe := fun x => (Qlt_bool x (a_low_out a) || Qlt_bool (a_upp_out a) x)%bool) in *.
  set (fm := fun x => (Qlt_bool x (a_low_inn a) || Qlt_bool (a_upp_inn a) x)%bool) in *.
  set (fi := fun x => (Qle_bool (a_low_inn a) x && Qle_bool x (a_upp_inn a))%bool) in *.
  assert (He : forall x, fe x = true <-> extreme a x).
  { intros x. unfold fe, extreme. rewrite Bool.orb_true_iff, !Qlt_bool_iff. reflexivity. }
  assert (Hi : forall x, fi x = true <-> inlier a x).
  { intros x. unfold fi, inlier. rewrite Bool.andb_true_iff, !Qle_bool_iff. reflexivity. }
  assert (Hm : forall x, fm x = negb (fi x)).
  { intros x. unfold fm, fi, Qlt_bool. rewrite Bool.negb_andb. reflexivity. }
  assert (Hem : forall x, fe x = true -> fm x = true).
  { intros x. rewrite He. unfold fm, extreme. rewrite Bool.orb_true_iff, !Qlt_bool_iff. intros [?|?]; lra. }
  pose proof (filter_length_diff fm fe data Hem) as D1.
  pose proof (filter_length_compl fi data) as D2.
  assert (D3 : filter (fun x => negb (fi x)) data = filter fm data).
  { apply filter_ext. intros x. symmetry. apply Hm. }
  rewrite D3 in D2.
  assert (NI : filter fi data <> []).
  { destruct (Nat.eq_dec (length data) 2) as [L2|L2].
    - destruct data as [|y data']; [congruence|]. intros C.
      assert (In y (filter fi (y :: data'))) as I.
      { apply filter_In. split; [left; reflexivity|]. apply Hi. unfold inlier. rewrite F1, F2.
        apply (two (y :: data') q1 q3 L2 E1 E3). left. reflexivity. }
      rewrite C in I. destruct I.
    - destruct (middle data q1 q3 N L2 E1 E3) as (y & Hy & B). intros C.
      assert (In y (filter fi data)) as I.
      { apply filter_In. split; [exact Hy|]. apply Hi. unfold inlier. rewrite F1, F2.
        pose proof (percentile_mono data 25 75 q1 q3 N ltac:(lia) ltac:(lia) E1 E3). lra. }
      rewrite C in I. destruct I. }
  destruct (average_mean _ NI) as (m & Am & Mm).
  exists (length (filter (fun x => fm x && negb (fe x))%bool data)), (filter fi data), m.
  split; [rewrite Mi; rewrite D1, X; lia|].
  split; [rewrite X; apply exactly_filter; exact He|].
  split.
  { apply exactly_filter. intros x. unfold mild. rewrite <- He, <- Hi, Hm.
    destruct (fe x), (fi x); cbn; intuition congruence. }
  split.
  { clear - Hi. induction data as [|x data IH]; cbn [filter]; [constructor|].
    destruct (fi x) eqn:E; [apply sel_keep|apply sel_drop]; auto.
    - apply Hi; exact E.
    - intros C. apply Hi in C. congruence. }
  split; [rewrite X; lia|]. split; [exact NI|]. split; [congruence|]. split; [exact Mm|].
  unfold inlier. apply (mean_bounds (filter fi data)); auto.
  intros x Hx. apply filter_In in Hx. apply Hi, Hx.
Qed.
Print Assumptions C72_counts.

Definition sample13 : list Q := [0; 0; 0; 0; 1; 1; 1; 2; 2; 2; 5; 8; 1000].
Example C72_example : exists a, yield_analysis always0 sample13 10 = Some a
  /\ a_low_inn a == -3 /\ a_upp_inn a == 5 /\ a_low_out a == -6 /\ a_upp_out a == 8
  /\ a_extr a = 1%nat /\ a_mild a = 1%Z /\ a_good a = false.
Proof.
  destruct (analysis_some always0 sample13 10 always0_fair) as (a & E); [discriminate|lia|].
  exists a. split; [exact E|]. vm_compute in E; injection E as <-; vm_compute. repeat split; reflexivity.
Qed.

(** ** C106 *)

(** The data are called suspicious exactly when more than one value in twenty lies farther than
    three standard deviations from the mean. *)
Theorem C106_flag : forall randint data n a, yield_analysis randint data n = Some a ->
  exists k, exactly k (far data) data /\ (a_good a = false <-> (length data < 20 * k)%nat).
Proof.
  intros randint data n a H. destruct (analysis_inv _ _ _ _ H) as (N & q1 & q3 & I).
  destruct I as (_ & _ & _ & _ & _ & _ & _ & _ & _ & M & V & G & _).
  pose proof (variance_eq data _ _ N V) as V'.
  set (ib := in_band (a_mean a) (a_variance a)) in *.
  exists (length (filter (fun x => negb (ib x)) data)). split.
  - apply exactly_filter. intros x. rewrite (far_iff data (a_mean a) (a_variance a) x N M V').
    unfold ib, in_band. fold (Qlt_bool (9 * a_variance a) ((x - a_mean a) * (x - a_mean a))).
    rewrite Qlt_bool_iff. reflexivity.
  - pose proof (filter_length_compl ib data) as D. rewrite G, Bool.negb_false_iff, Qlt_bool_iff.
    unfold qlen. set (c := length (filter ib data)) in *. set (o := length (filter _ data)) in *.
    assert (E : (95 # 100) * inject_Z (Z.of_nat (length data)) == (95 * Z.of_nat (length data)) # 100)
      by (unfold Qeq, Qmult, inject_Z; cbn [Qnum Qden]; lia).
    rewrite E. unfold Qlt, inject_Z. cbn [Qnum Qden]. lia.
Qed.
Print Assumptions C106_flag.

(** Ten runs or fewer are never called suspicious, whatever their values. *)
Theorem C106_ten_runs : forall randint data n a, yield_analysis randint data n = Some a ->
  (length data <= 10)%nat -> a_good a = true /\ forall x, In x data -> ~ far data x.
Proof.
  intros randint data n a H L. destruct (analysis_inv _ _ _ _ H) as (N & q1 & q3 & I).
  destruct I as (_ & _ & _ & _ & _ & _ & _ & _ & _ & M & V & G & _).
  pose proof (variance_eq data _ _ N V) as V'.
  assert (V0 : 0 <= a_variance a).
  { pose proof (dev2_total_nonneg (a_mean a) data) as D. rewrite <- V' in D.
    apply Qmult_le_r with (z := size data); [apply size_pos; exact N|]. lra. }
  assert (S : size data <= 10).
  { unfold size. setoid_replace 10 with (inject_Z 10) by reflexivity. rewrite <- Zle_Qle. lia. }
  assert (B : forall x, In x data -> dev2 (a_mean a) x <= 9 * a_variance a).
  { intros x Hx. eapply Qle_trans; [apply (samuelson data _ _ x M V' Hx)|].
    apply Qmult_le_compat_r; lra. }
  assert (NF : forall x, In x data -> ~ far data x).
  { intros x Hx C. apply (far_iff data _ _ x N M V') in C. specialize (B x Hx). lra. }
  split; [|exact NF].
  destruct (C106_flag _ _ _ _ H) as (k & (yes & no & P & Ly & Y & _) & F).
  destruct (a_good a); [reflexivity|exfalso].
  destruct yes as [|y yes].
  - cbn in Ly. subst k. apply proj1 in F. specialize (F eq_refl). lia.
  - apply (NF y); [apply (Permutation_in _ P); left; reflexivity|]. inversion Y; assumption.
Qed.
Print Assumptions C106_ten_runs.

(** Fewer than one value in nine is far from the mean. *)
Theorem C106_few_far : forall randint data n a k, yield_analysis randint data n = Some a ->
  exactly k (far data) data -> (k = 0 \/ 9 * k < length data)%nat.
Proof.
  intros randint data n a k H E. destruct (analysis_inv _ _ _ _ H) as (N & q1 & q3 & I).
  destruct I as (_ & _ & _ & _ & _ & _ & _ & _ & _ & M & V & G & _).
  pose proof (variance_eq data _ _ N V) as V'.
  apply (few_outside data (a_mean a) (a_variance a) k N V').
  destruct E as (yes & no & P & L & Y & O). exists yes, no. split; [exact P|]. split; [exact L|].
  rewrite Forall_forall in Y, O. split; apply Forall_forall; intros x Hx.
  - apply (far_iff data _ _ x N M V'). auto.
  - intros C. apply (far_iff data _ _ x N M V') in C. apply (O x Hx C).
Qed.
Print Assumptions C106_few_far.

(** Eleven runs can be. *)
Example C106_eleven : exists a, yield_analysis always0 (11 :: repeat 0 10) 10 = Some a /\ a_good a = false.
Proof.
  destruct (analysis_some always0 (11 :: repeat 0 10) 10 always0_fair) as (a & E); [discriminate|lia|].
  exists a. split; [exact E|]. vm_compute in E; injection E as <-; vm_compute. reflexivity.
Qed.

(** ** C107 *)

(** The report on a suspicious result prints, as the number "out of" the band, the number of
    values inside it, marks the values inside it as out of it, marks a value on the inner fence as
    a mild outlier and does not mark one on the outer fence. *)
Theorem C107_report_refuted : exists a r k,
  yield_analysis always0 sample13 10 = Some a /\ suspicious a sample13 = Some r
  /\ exactly k (far sample13) sample13 /\ k = 1%nat /\ r_out_of r = 12%nat
  /\ (forall l, In l (r_lines r) -> (l_out_of_band l = true <-> ~ far sample13 (l_value l)))
  /\ (exists l, In l (r_lines r) /\ l_value l = 5 /\ l_mild l = true /\ inlier a 5)
  /\ (exists l, In l (r_lines r) /\ l_value l = 8 /\ l_mild l = false /\ l_extreme l = false /\ mild a 8).
Proof.
  destruct (analysis_some always0 sample13 10 always0_fair) as (a & E); [discriminate|lia|].
  destruct (C106_flag _ _ _ _ E) as (k & K & F).
  destruct (C106_few_far _ _ _ _ k E K) as [K0|K0].
  { exfalso. assert (a_good a = false) as G.
    { clear - E. vm_compute in E; injection E as <-; vm_compute. reflexivity. }
    apply F in G. lia. }
  assert (G : a_good a = false /\ length sample13 = 13%nat).
  { split; [|reflexivity]. clear - E. vm_compute in E; injection E as <-; vm_compute. reflexivity. }
  destruct G as [G L13]. assert (k = 1%nat) as -> by (apply F in G; lia).
  destruct (analysis_inv _ _ _ _ E) as (N & q1 & q3 & I).
  destruct I as (_ & _ & _ & _ & _ & _ & _ & _ & _ & M & V & _ & _).
  pose proof (variance_eq sample13 _ _ N V) as V'.
  eexists a, _, 1%nat. split; [exact E|]. split; [unfold suspicious; rewrite G; reflexivity|].
  split; [exact K|]. split; [reflexivity|]. cbn [r_out_of r_lines].
  split; [|split; [|split]].
  - clear - E. vm_compute in E; injection E as <-; vm_compute. reflexivity.
  - intros l Hl. apply in_map_iff in Hl. destruct Hl as (x & <- & Hx). cbn [l_out_of_band l_value report_line].
    rewrite (far_iff sample13 _ _ x N M V'). unfold in_band. rewrite Qle_bool_iff. unfold dev2. split; lra.
  - exists (report_line a 5). split; [apply in_map; unfold sample13; cbn; tauto|]. split; [reflexivity|].
    clear - E. vm_compute in E; injection E as <-; vm_compute. repeat split; discriminate.
  - exists (report_line a 8). split; [apply in_map; unfold sample13; cbn; tauto|]. split; [reflexivity|].
    split; [clear - E; vm_compute in E; injection E as <-; vm_compute; reflexivity|].
    split; [clear - E; vm_compute in E; injection E as <-; vm_compute; reflexivity|].
    split.
    + intros [C|C]; clear - E C; vm_compute in E; injection E as <-; vm_compute in C; discriminate.
    + intros [_ C]; clear - E C; vm_compute in E; injection E as <-; apply C; vm_compute; reflexivity.
Qed.
Print Assumptions C107_report_refuted.

(** What is right in it: the extreme outliers are marked, and the mild ones are marked unless they lie
    exactly on a fence. *)
Theorem C107_report_partial : forall randint data n a r,
  yield_analysis randint data n = Some a -> suspicious a data = Some r ->
  r_total r = length data /\ map l_value (r_lines r) = data
  /\ forall l, In l (r_lines r) ->
       (l_extreme l = true <-> extreme a (l_value l))
       /\ (~ l_value l == a_upp_inn a -> ~ l_value l == a_upp_out a ->
           (l_mild l = true <-> mild a (l_value l))).
Proof.
  intros randint data n a r H S.
  destruct (C72_fences _ _ _ _ H) as (p1 & p3 & _ & _ & Lp & _ & O1 & O2 & O3 & O4).
  unfold suspicious in S. destruct (a_good a); [discriminate|]. injection S as <-. cbn [r_total r_lines].
  split; [reflexivity|]. split; [rewrite map_map; apply map_id|].
  intros l Hl. apply in_map_iff in Hl. destruct Hl as (x & <- & _).
  cbn [l_value l_extreme l_mild report_line]. unfold mild, extreme, inlier.
  rewrite !Bool.orb_true_iff, !Bool.andb_true_iff, !Qlt_bool_iff, !Qle_bool_iff.
  split; [reflexivity|]. intros N1 N2. split.
  - intros [[A B]|[A B]]; lra.
  - intros [A B]. destruct (Qlt_le_dec x (a_low_inn a)) as [C|C].
    + left. split; [|exact C]. destruct (Qlt_le_dec x (a_low_out a)); [tauto|assumption].
    + right. destruct (Qlt_le_dec (a_upp_out a) x) as [D|D]; [tauto|].
      assert (a_upp_inn a <= x).
      { destruct (Qlt_le_dec x (a_upp_inn a)) as [E|E]; [|exact E]. exfalso. apply B. lra. }
      split; [assumption|]. destruct (Qlt_le_dec x (a_upp_out a)) as [E|E]; [exact E|].
      exfalso. apply N2. lra.
Qed.
Print Assumptions C107_report_partial.

(** ** C73 *)

(** The weak winners are, in order, the other algorithms whose score is near the winner's. *)
Theorem C73_weak_winners : forall scoring w tol,
  0 <= tol -> 0 <= snd w -> (forall a s, In (a, s) scoring -> 0 <= s) ->
  exists ws, get_weak_winners scoring w tol = Some ws
    /\ selects (fun x => fst x <> fst w /\ near_tie tol (snd x) (snd w)) scoring ws.
Proof. exact weak_ok. Qed.
Print Assumptions C73_weak_winners.

(** The whole ranking: every algorithm gets, per metric, the points it earns on every problem. *)
Theorem C73_ranking : forall boot_size randint stored,
  (1 <= boot_size)%nat -> (forall c, fair (randint c)) -> tidy stored ->
  exists f, rank boot_size randint stored = Some f
    /\ forall metric larger tol algo, ranked metric larger tol ->
         ranking metric larger tol algo stored (f metric algo).
Proof.
  intros boot_size randint stored Hb D T.
  destruct (problems_ok boot_size randint Hb D stored [] [] T) as (t & names & E & A & R).
  - intros p k l _ [].
  - reflexivity.
  - unfold rank. unfold key in *. rewrite E, A. cbn [app]. eexists. split; [reflexivity|].
    intros metric larger tol algo Rk. apply R. exact Rk.
Qed.
Print Assumptions C73_ranking.

(** Points do not depend on how the relations are read: they are determined by the scores. *)
Theorem C73_points_determined : forall larger tol scores algo k k',
  NoDup (map fst scores) ->
  points larger tol scores algo k -> points larger tol scores algo k' -> k = k'.
Proof.
  intros larger tol scores algo k k' ND P P'.
  assert (U : forall w w', wins larger scores w -> wins larger scores w' -> w = w').
  { intros w w' (b & a & E & Hb & Ha) (b' & a' & E' & Hb' & Ha'). rewrite E in E'.
    revert b' E' Hb'. clear E. induction b as [|x b IH]; intros [|x' b'] E' Hb'; cbn in E'.
    - congruence.
    - injection E' as -> ->. exfalso. assert (B : better larger (snd w') (snd x')) by (apply Hb'; left; reflexivity).
      assert (~ better larger (snd w') (snd x')) by (apply Ha; apply in_or_app; right; left; reflexivity). tauto.
    - injection E' as <- <-. exfalso. assert (B : better larger (snd w) (snd x)) by (apply Hb; left; reflexivity).
      assert (~ better larger (snd w) (snd x)) by (apply Ha'; apply in_or_app; right; left; reflexivity). tauto.
    - injection E' as -> E'. apply (IH (fun y Hy => Hb y (or_intror Hy)) b' E' (fun y Hy => Hb' y (or_intror Hy))). }
  assert (Z : forall w, scores = [] -> wins larger scores w -> False).
  { intros w -> (b & a & E & _). destruct b; discriminate. }
  destruct P as [E|w W R E|w a W R E|w W E R], P' as [E'|w' W' R' E'|w' a' W' R' E'|w' W' E' R'];
    try reflexivity; try (exfalso; eapply Z; eassumption);
    pose proof (U _ _ W W') as <-; exfalso; try (apply (R a'); assumption); try (apply (R' a); assumption);
      try congruence; tauto.
Qed.
Print Assumptions C73_points_determined.

Definition board : list (string * list (string * list result)) :=
  [("ZDT1"%string, [("NSGAII"%string, [res 1000 [1010; 1020] [3; 4]]);
                    ("SPEA2"%string, [res 1000 [1000; 1000] [5; 6]]);
                    ("IBEA"%string, [res 1000 [1000; 1000] [6; 5]])]);
   ("ZDT2"%string, [("NSGAII"%string, [res 1000 [1010; 1020] [9; 9]]);
                    ("SPEA2"%string, [res 1000 [1000; 1000] [5; 6]])])].
Example C73_tidy : tidy board.
Proof.
  split; [cbn; constructor; [intros [E|[]]; discriminate|constructor; [intros []|constructor]]|].
  assert (G : forall b c h, c <> [] -> h <> [] -> (forall x, In x h -> 0 <= x) ->
     forall r, In r [res b c h] -> fresh r
       /\ forall m larger tol d x, ranked m larger tol -> has_metric r m d -> In x d -> 0 <= x).
  { intros b c h N1 N2 P r [<-|[]]. split; [apply res_fresh; assumption|].
    intros m larger tol d x R [E|[E|[]]] Hx; injection E as <- <-; [exfalso; eapply cost_not_ranked; eauto|auto]. }
  intros p algos [E|[E|[]]]; injection E as <- <-; (split;
    [cbn; repeat (constructor; [cbn; intuition discriminate|]); constructor|]);
    intros algo rs Hr; cbn in Hr; repeat destruct Hr as [Hr|Hr]; try contradiction; injection Hr as <- <-;
    (split; [discriminate|]); apply G; try discriminate; cbn; intros x Hx;
    repeat destruct Hx as [<-|Hx]; try contradiction; unfold Qle; cbn; lia.
Qed.
Example C73_example : exists f, rank 10 (fun _ => always0) board = Some f
  /\ f "hypervolume"%string "NSGAII"%string = 2%nat
  /\ f "hypervolume"%string "SPEA2"%string = 1%nat /\ f "hypervolume"%string "IBEA"%string = 1%nat.
Proof.
  destruct (C73_ranking 10 (fun _ => always0) board) as (f & E & _);
    [lia|intros; apply always0_fair|apply C73_tidy|].
  exists f. split; [exact E|]. unfold rank in E.
  destruct (problem_loop 10 (fun _ => always0) board []) as [t|] eqn:Et; [|discriminate].
  destruct (award_loop t) as [nm|] eqn:En; [|discriminate]. injection E as <-.
  revert Et. vm_compute. intros Et. injection Et as <-. revert En. vm_compute. intros En. injection En as <-.
  repeat split; reflexivity.
Qed.
