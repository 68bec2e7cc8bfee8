(** Proofs about mantissa trimming. *)
From Verif Require Import TrimModel TrimSpec.
From Coq Require Import QArith Qround Qpower List Bool Lia Lqa.
Import ListNotations.
Local Open Scope Q_scope.

Lemma fraction_cons d ds : fraction (d :: ds) == ((if d then 1 else 0) + fraction ds) * (1 # 2).
Proof. cbn [fraction]. unfold Qdiv. reflexivity. Qed.
Lemma fraction_range ds : 0 <= fraction ds /\ fraction ds < 1.
Proof.
  induction ds as [|d ds (H1 & H2)]; [cbn; lra|]. rewrite !fraction_cons. destruct d; lra.
Qed.

(** digits kept, by the number still to keep *)
Fixpoint keep (k : nat) (ds : list bool) : list bool :=
  match ds with
  | [] => []
  | d :: ds' => match k with O => false :: keep O ds' | S k' => d :: keep k' ds' end
  end.
Lemma keep_digits_keep ds : forall i k, keep_digits i (i + k) ds = keep k ds.
Proof.
  induction ds as [|d ds IH]; intros i k; cbn [keep_digits keep]; [reflexivity|]. destruct k as [|k].
  - replace (i <? i + 0)%nat with false by (symmetry; apply Nat.ltb_ge; lia). f_equal.
    assert (G : forall l j, (i <= j)%nat -> keep_digits j (i + 0) l = keep O l).
    { clear. induction l as [|d l IH]; intros j Hj; cbn [keep_digits keep]; [reflexivity|]. replace (j <? i + 0)%nat with false by (symmetry; apply Nat.ltb_ge; lia). rewrite IH by lia. reflexivity. }
    apply G. lia.
  - replace (i <? i + S k)%nat with true by (symmetry; apply Nat.ltb_lt; lia). f_equal. replace (i + S k)%nat with (S i + k)%nat by lia. apply IH.
Qed.
Lemma keep_0 ds : fraction (keep 0 ds) == 0.
Proof. induction ds as [|d ds IH]; [reflexivity|]. cbn [keep]. rewrite fraction_cons, IH. reflexivity. Qed.
Lemma keep_idem k ds : keep k (keep k ds) = keep k ds.
Proof. revert k. induction ds as [|d ds IH]; intros k; [reflexivity|]. destruct k; cbn; rewrite IH; reflexivity. Qed.
Lemma keep_all k ds : (length ds <= k)%nat -> keep k ds = ds.
Proof. revert k. induction ds as [|d ds IH]; intros k H; [reflexivity|]. destruct k; cbn in *; [lia|]. rewrite IH by lia. reflexivity. Qed.

(** 2^-k *)
Fixpoint half (k : nat) : Q := match k with O => 1 | S k' => half k' * (1 # 2) end.
Lemma half_pos k : 0 < half k.
Proof. induction k as [|k IH]; cbn; lra. Qed.
Lemma keep_bounds k ds : fraction (keep k ds) <= fraction ds /\ fraction ds < fraction (keep k ds) + half k.
Proof.
  revert k. induction ds as [|d ds IH]; intros k; [pose proof (half_pos k); destruct k; cbn in *; lra|].
  destruct k as [|k].
  - rewrite keep_0. pose proof (fraction_range (d :: ds)). cbn [half]. lra.
  - cbn [keep half]. rewrite !fraction_cons. destruct (IH k). lra.
Qed.
Lemma keep_mono k : forall ds es, fraction ds <= fraction es -> fraction (keep k ds) <= fraction (keep k es).
Proof.
  induction k as [|k IH]; intros ds es H; [rewrite !keep_0; lra|].
  destruct ds as [|d ds]; [cbn [keep fraction]; apply fraction_range|].
  destruct es as [|e es]; cbn [keep].
  - rewrite fraction_cons in *. change (fraction []) with 0 in *. pose proof (fraction_range ds). destruct d; [lra|].
    specialize (IH ds [] ltac:(change (fraction []) with 0; lra)). replace (fraction (keep k [])) with 0 in IH by (destruct k; reflexivity). lra.
  - rewrite !fraction_cons in *. pose proof (fraction_range ds). pose proof (fraction_range es). pose proof (fraction_range (keep k ds)). pose proof (fraction_range (keep k es)).
    destruct d, e; try lra; (assert (fraction ds <= fraction es) as HH by lra; apply IH in HH; lra).
Qed.

Lemma power_pos e : 0 < Qpower 2 e.
Proof. apply Qpower_0_lt. lra. Qed.

Lemma trim_digits x k : digits (trim_mantissa x k) = keep k (digits x).
Proof. unfold trim_mantissa. cbn [digits]. apply (keep_digits_keep (digits x) 0 k). Qed.
Lemma trim_exponent x k : exponent (trim_mantissa x k) = exponent x.
Proof. reflexivity. Qed.
Lemma magnitude_nonneg x : 0 <= magnitude x.
Proof. unfold magnitude. apply Qmult_le_0_compat; [apply fraction_range | apply Qlt_le_weak; apply power_pos]. Qed.
Lemma trim_magnitude x k : magnitude (trim_mantissa x k) <= magnitude x /\ magnitude x < magnitude (trim_mantissa x k) + half k * Qpower 2 (exponent x).
Proof.
  unfold magnitude. rewrite trim_digits, trim_exponent. pose proof (power_pos (exponent x)) as PP. destruct (keep_bounds k (digits x)) as (H1 & H2).
  split; [apply Qmult_le_compat_r; lra|]. setoid_replace (fraction (keep k (digits x)) * Qpower 2 (exponent x) + half k * Qpower 2 (exponent x)) with ((fraction (keep k (digits x)) + half k) * Qpower 2 (exponent x)) by ring.
  apply Qmult_lt_r; assumption.
Qed.

Lemma half_power k : half k == Qpower 2 (- Z.of_nat k).
Proof.
  induction k as [|k IH]; [reflexivity|]. cbn [half]. rewrite IH. replace (- Z.of_nat (S k))%Z with (- Z.of_nat k + (-1))%Z by lia.
  rewrite Qpower_plus by lra. reflexivity.
Qed.
Lemma power_S e : Qpower 2 (e + 1) == 2 * Qpower 2 e.
Proof. rewrite Qpower_plus by lra. change (Qpower 2 1) with 2. ring. Qed.
Lemma power_mono e e' : (e <= e')%Z -> Qpower 2 e <= Qpower 2 e'.
Proof. intros H. apply Qpower_le_compat_l; [exact H | lra]. Qed.

Lemma trim_magnitude_mono emin k x y : normal emin x -> normal emin y -> magnitude x <= magnitude y ->
  magnitude (trim_mantissa x k) <= magnitude (trim_mantissa y k).
Proof.
  intros (Ex & Nx) (Ey & Ny) H. destruct k as [|k].
  { unfold magnitude. rewrite !trim_digits, !keep_0. lra. }
  destruct (Z.lt_trichotomy (exponent x) (exponent y)) as [L|[L|L]].
  - (* y is larger by its leading bit *)
    assert (exists ds, digits y = true :: ds) as (ds & Ed) by (destruct Ny as [Ny|Ny]; [exact Ny | lia]).
    apply Qle_trans with (magnitude x); [apply trim_magnitude|].
    apply Qle_trans with (Qpower 2 (exponent y) * (1 # 2)).
    + unfold magnitude. pose proof (fraction_range (digits x)) as (F1 & F2). pose proof (power_pos (exponent x)).
      apply Qle_trans with (1 * Qpower 2 (exponent x)); [apply Qmult_le_compat_r; lra|].
      assert (P2 : Qpower 2 (exponent x + 1) <= Qpower 2 (exponent y)) by (apply power_mono; lia). rewrite power_S in P2. lra.
    + unfold magnitude. rewrite trim_digits, Ed. cbn [keep]. rewrite fraction_cons, trim_exponent. pose proof (fraction_range (keep k ds)). pose proof (power_pos (exponent y)).
      setoid_replace (Qpower 2 (exponent y) * (1 # 2)) with ((1 # 2) * Qpower 2 (exponent y)) by ring. apply Qmult_le_compat_r; lra.
  - unfold magnitude in *. rewrite !trim_digits, !trim_exponent. rewrite L in *. pose proof (power_pos (exponent y)) as PP.
    apply Qmult_le_compat_r; [|lra]. apply keep_mono. apply Qmult_le_r in H; assumption.
  - (* then x is larger: contradiction unless it has no leading bit, which cannot be *)
    assert (exists ds, digits x = true :: ds) as (ds & Ed) by (destruct Nx as [Nx|Nx]; [exact Nx | lia]).
    exfalso. unfold magnitude in H. rewrite Ed, fraction_cons in H. pose proof (fraction_range ds) as (F0 & _). pose proof (fraction_range (digits y)) as (_ & F1).
    pose proof (power_pos (exponent y)) as PP. assert (P2 : Qpower 2 (exponent y + 1) <= Qpower 2 (exponent x)) by (apply power_mono; lia). rewrite power_S in P2.
    assert (A : (1 # 2) * Qpower 2 (exponent x) <= (1 + fraction ds) * (1 # 2) * Qpower 2 (exponent x)) by (apply Qmult_le_compat_r; [lra | apply Qlt_le_weak, power_pos]).
    assert (B : fraction (digits y) * Qpower 2 (exponent y) < 1 * Qpower 2 (exponent y)) by (apply Qmult_lt_r; assumption). lra.
Qed.

Lemma trim_sign x k : sign (trim_mantissa x k) = sign x.
Proof. reflexivity. Qed.
Lemma trim_normal emin x k : normal emin x -> (1 <= k)%nat -> normal emin (trim_mantissa x k).
Proof.
  intros (E & N) Hk. split; [exact E|]. destruct N as [(ds & Ed)|N]; [|now right]. left. rewrite trim_digits, Ed. destruct k; [lia|]. eexists. reflexivity.
Qed.
Lemma trim_value_mono emin k x y : normal emin x -> normal emin y -> value x <= value y -> value (trim_mantissa x k) <= value (trim_mantissa y k).
Proof.
  intros Nx Ny H. unfold value in *. rewrite !trim_sign. pose proof (magnitude_nonneg (trim_mantissa x k)). pose proof (magnitude_nonneg (trim_mantissa y k)).
  pose proof (magnitude_nonneg x). pose proof (magnitude_nonneg y).
  destruct (sign x), (sign y).
  - assert (magnitude y <= magnitude x) as M by lra. apply (trim_magnitude_mono emin k) in M; [lra | assumption | assumption].
  - lra.
  - assert (magnitude x == 0) by lra. assert (magnitude y == 0) by lra. pose proof (trim_magnitude x k). pose proof (trim_magnitude y k). lra.
  - apply (trim_magnitude_mono emin k); assumption.
Qed.
