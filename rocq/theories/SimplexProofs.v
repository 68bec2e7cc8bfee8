(** Proofs for C158. *)
From Coq Require Import Reals List Lra Lia.
From Coquelicot Require Import Coquelicot.
From Verif Require Import SimplexSpec Nsga3Model.
Import ListNotations.
Local Open Scope R_scope.

Lemma mean_ext n : forall f g p, (forall us, length us = n -> f us = g us) -> mean n f p -> mean n g p.
Proof.
  induction n as [|n IH]; cbn [mean]; intros f g p H M.
  - now rewrite <- H.
  - destruct M as (h & Hh & I). exists h. split; [|exact I]. intros u Hu. eapply IH; [|exact (Hh u Hu)].
    intros us L. apply H. cbn. now rewrite L.
Qed.

Lemma is_RInt_const_R (a b c : R) : is_RInt (fun _ => c) a b ((b - a) * c).
Proof. exact (is_RInt_const a b c). Qed.

Lemma is_RInt_zero (a b : R) : is_RInt (fun _ => 0) a b 0.
Proof. pose proof (is_RInt_const_R a b 0) as H. now rewrite Rmult_0_r in H. Qed.

Lemma mean_zero n : mean n (fun _ => 0) 0.
Proof.
  induction n as [|n IH]; cbn [mean]; [reflexivity|]. exists (fun _ => 0). split; [intros; exact IH|].
  apply is_RInt_zero.
Qed.

(** The indicator of "every coordinate exceeds its threshold". *)
Fixpoint above (t x : list R) : R :=
  match t, x with
  | [], [] => 1
  | a :: t', b :: x' => if Rlt_dec a b then above t' x' else 0
  | _, _ => 0
  end.
Lemma above_spec : forall t x, (Forall2 Rlt t x -> above t x = 1) /\ (~ Forall2 Rlt t x -> above t x = 0).
Proof.
  induction t as [|a t IH]; intros [|b x]; cbn [above]; split; intros H; try reflexivity; try (inversion H; fail).
  - exfalso. apply H. constructor.
  - inversion H; subst. destruct (Rlt_dec a b); [now apply IH | contradiction].
  - destruct (Rlt_dec a b) as [L|L]; [|reflexivity]. apply IH. intro F. apply H. now constructor.
Qed.

Lemma loop_ext : forall left r r' s, (forall j, (2 <= j <= left)%nat -> r j = r' j) ->
  reference_loop left r s = reference_loop left r' s.
Proof.
  induction left as [|[|k] IH]; intros r r' s H; try reflexivity.
  change (reference_loop (S (S k)) r s) with
    (let c := (1 - s) * (1 - Rpower (r (S (S k))) (1 / INR (S k))) in c :: reference_loop (S k) r (s + c)).
  change (reference_loop (S (S k)) r' s) with
    (let c := (1 - s) * (1 - Rpower (r' (S (S k))) (1 / INR (S k))) in c :: reference_loop (S k) r' (s + c)).
  cbv zeta. rewrite (H (S (S k))) by lia. f_equal. apply IH. intros j Hj. apply H. lia.
Qed.

Definition tail_chance (k : nat) (r T : R) : R := if Rlt_dec T r then ((r - T) / r) ^ k else 0.

Lemma total_nonneg t : List.Forall (fun x => 0 <= x) t -> 0 <= total t.
Proof. induction 1; cbn [total fold_right]; [lra|]. fold (total l). lra. Qed.

Lemma pow_S_lt k a b : 0 <= a -> a < b -> a ^ S k < b ^ S k.
Proof.
  intros Ha H. induction k as [|k IH]; [cbn; lra|].
  assert (0 <= a ^ S k) by (now apply pow_le). rewrite <- (tech_pow_Rmult b), <- (tech_pow_Rmult a). nra.
Qed.

Section Step.
  Variables (k : nat) (r t1 T : R).
  Hypothesis (Hr : 0 < r) (Ht : 0 <= t1) (HT : 0 <= T).
  Let n := S k.
  Let c := 1 / INR n.
  Let q (u : R) := Rpower u c.

  Let n_pos : 0 < INR n.
  Proof. apply lt_0_INR. unfold n. lia. Qed.
  Let q_pos u : 0 < q u.
  Proof. apply exp_pos. Qed.
  Let q_pow u : 0 < u -> q u ^ n = u.
  Proof.
    intros H. rewrite <- Rpower_pow by apply q_pos. unfold q. rewrite Rpower_mult. unfold c.
    replace (1 / INR n * INR n) with 1 by (field; lra). now apply Rpower_1.
  Qed.
  Let pow_lt_inv a b : 0 <= a -> 0 <= b -> a ^ n < b ^ n -> a < b.
  Proof.
    intros Ha Hb H. destruct (Rlt_le_dec a b) as [L|L]; [exact L|]. exfalso.
    pose proof (pow_incr b a n (conj Hb L)). lra.
  Qed.
  Let pow_lt' a b : 0 <= a -> a < b -> a ^ n < b ^ n.
  Proof. apply pow_S_lt.
  Qed.

  Let g (u : R) := if Rlt_dec t1 (r * (1 - q u)) then tail_chance k (r * q u) T else 0.

  Let main : T < r - t1 -> is_RInt g 0 1 (((r - (t1 + T)) / r) ^ n).
  Proof.
    intros H. set (a := T / r). set (b := (r - t1) / r).
    assert (a0 : 0 <= a) by (unfold a; apply Rmult_le_pos; [lra | left; now apply Rinv_0_lt_compat]).
    assert (ab : a < b) by (unfold a, b; apply Rmult_lt_compat_r; [now apply Rinv_0_lt_compat | lra]).
    assert (b1 : b <= 1) by (unfold b; apply Rmult_le_reg_r with r; [lra|]; unfold Rdiv; rewrite Rmult_assoc, Rinv_l by lra; lra).
    assert (ar : a * r = T) by (unfold a; field; lra). assert (br : b * r = r - t1) by (unfold b; field; lra).
    assert (u0 : 0 <= a ^ n) by (now apply pow_le). assert (u01 : a ^ n < b ^ n) by (apply pow_lt'; lra).
    assert (u1 : b ^ n <= 1) by (rewrite <- (pow1 n); apply pow_incr; lra).
    assert (I1 : is_RInt g 0 (a ^ n) 0).
    { apply (is_RInt_ext (fun _ => 0)).
      - rewrite Rmin_left, Rmax_right by lra. intros u Hu. unfold g. destruct (Rlt_dec t1 _); [|reflexivity].
        unfold tail_chance. destruct (Rlt_dec T (r * q u)) as [L|L]; [|reflexivity]. exfalso.
        assert (q u < a) by (apply pow_lt_inv; [left; apply q_pos | exact a0 | rewrite q_pow; lra]). nra.
      - apply is_RInt_zero. }
    assert (I3 : is_RInt g (b ^ n) 1 0).
    { apply (is_RInt_ext (fun _ => 0)).
      - rewrite Rmin_left, Rmax_right by lra. intros u Hu. unfold g. destruct (Rlt_dec t1 _) as [L|L]; [|reflexivity]. exfalso.
        assert (b < q u) by (apply pow_lt_inv; [lra | left; apply q_pos | rewrite q_pow; lra]). nra.
      - apply is_RInt_zero. }
    assert (I2 : is_RInt g (a ^ n) (b ^ n) (((r - (t1 + T)) / r) ^ n)).
    { apply (is_RInt_ext (fun u => ((r * q u - T) / (r * q u)) ^ k)).
      - rewrite Rmin_left, Rmax_right by lra. intros u Hu. assert (0 < u) by lra.
        assert (a < q u) by (apply pow_lt_inv; [exact a0 | left; apply q_pos | rewrite q_pow; lra]).
        assert (q u < b) by (apply pow_lt_inv; [left; apply q_pos | lra | rewrite q_pow; lra]).
        unfold g, tail_chance. destruct (Rlt_dec t1 (r * (1 - q u))) as [L|L]; [|nra].
        destruct (Rlt_dec T (r * q u)) as [L'|L']; [reflexivity | nra].
      - destruct (Req_dec T 0) as [ET|ET].
        + apply (is_RInt_ext (fun _ => 1)).
          * intros u _. rewrite ET, Rminus_0_r. unfold Rdiv. rewrite Rinv_r by (pose proof (q_pos u); nra). symmetry. apply pow1.
          * replace (((r - (t1 + T)) / r) ^ n) with ((b ^ n - a ^ n) * 1); [apply is_RInt_const_R|].
            unfold a, b. rewrite ET. rewrite Rplus_0_r. unfold Rdiv at 2. rewrite Rmult_0_l. unfold n at 2. cbn [pow]. ring.
        + assert (a0' : 0 < a) by (unfold a; apply Rmult_lt_0_compat; [lra | now apply Rinv_0_lt_compat]).
          assert (u0' : 0 < a ^ n) by (now apply pow_lt).
          set (F := fun u => ((r * exp (c * ln u) - T) / r) ^ n).
          assert (EF : forall z, 0 < z -> exp (c * ln (z ^ n)) = z).
          { intros z Hz. change (exp (c * ln (z ^ n))) with (q (z ^ n)).
            assert (0 < z ^ n) by (now apply pow_lt).
            apply Rle_antisym; apply Rnot_lt_le; intro L.
            - apply (pow_lt' z (q (z ^ n))) in L; [rewrite q_pow in L by assumption; lra | lra].
            - apply (pow_lt' (q (z ^ n)) z) in L; [rewrite q_pow in L by assumption; lra | left; apply q_pos]. }
          replace (((r - (t1 + T)) / r) ^ n) with (minus (F (b ^ n)) (F (a ^ n))).
          2:{ unfold F. rewrite !EF by lra. unfold minus, plus, opp; cbn.
              replace (r * b - T) with (r - (t1 + T)) by lra. replace (r * a - T) with 0 by lra.
              unfold Rdiv at 3. rewrite Rmult_0_l, Rmult_0_l. ring. }
          apply (is_RInt_derive F (fun u => ((r * q u - T) / (r * q u)) ^ k)).
          * rewrite Rmin_left, Rmax_right by lra. intros u Hu. assert (Pu : 0 < u) by lra. unfold F.
            auto_derive; [split; [lra | exact I] || (repeat split; lra)|].
            change (exp (c * ln u)) with (q u).
            pose proof (q_pos u) as Qp. pose proof (q_pow u Pu) as Qn.
            replace (pred n) with k by reflexivity. 
            assert (Ec : INR n * c = 1) by (unfold c; field; lra).
            assert (Eu : / u = / (q u * q u ^ k)) by (f_equal; rewrite <- Qn at 1; reflexivity).
            assert (Dk : forall x y z : R, z <> 0 -> y <> 0 -> (x / (y * z)) ^ k = (x / y) ^ k * / z ^ k).
            { intros x y z Hz Hy. rewrite <- pow_inv, <- Rpow_mult_distr. f_equal. field. auto. }
            rewrite Dk by lra. 
            assert (q u ^ k <> 0) by (apply pow_nonzero; lra).
            match goal with |- context [match k with 0%nat => 1 | S _ => INR k + 1 end] =>
              change (match k with 0%nat => 1 | S _ => INR k + 1 end) with (INR n) end.
            change (r * q u + - T) with (r * q u - T). change ((r * q u - T) * / r) with ((r * q u - T) / r).
            rewrite Eu. set (W := ((r * q u - T) / r) ^ k). transitivity ((INR n * c) * W * / q u ^ k); [field; repeat split; lra|].
            rewrite Ec. ring.
          * rewrite Rmin_left, Rmax_right by lra. intros u Hu. apply (ex_derive_continuous (fun u => ((r * exp (c * ln u) - T) / (r * exp (c * ln u))) ^ k)).
            auto_derive. pose proof (exp_pos (c * ln u)). assert (r * exp (c * ln u) <> 0) by nra.
            repeat split; try lra; try assumption. }
    replace (((r - (t1 + T)) / r) ^ n) with (plus (plus 0 (((r - (t1 + T)) / r) ^ n)) 0) by (unfold plus; cbn; ring).
    exact (is_RInt_Chasles _ _ _ _ _ _ (is_RInt_Chasles _ _ _ _ _ _ I1 I2) I3).
  Qed.

  Lemma step_integral : is_RInt g 0 1 (tail_chance n r (t1 + T)).
  Proof.
    unfold tail_chance. destruct (Rlt_dec (t1 + T) r) as [L|L]; [apply main; lra|].
    apply (is_RInt_ext (fun _ => 0)); [|apply is_RInt_zero]. intros u _. unfold g.
    destruct (Rlt_dec t1 (r * (1 - q u))); [|reflexivity]. unfold tail_chance.
    destruct (Rlt_dec T (r * q u)); [lra | reflexivity].
  Qed.
End Step.

Lemma loop_chance k : forall s t, s < 1 -> length t = S k -> List.Forall (fun x => 0 <= x) t ->
  mean k (fun us => above t (reference_loop (S k) (in_order (S k) us) s)) (tail_chance k (1 - s) (total t)).
Proof.
  induction k as [|k IH]; intros s t Hs L N.
  - destruct t as [|a [|? ?]]; try discriminate. cbn [mean reference_loop above total fold_right]. unfold tail_chance.
    rewrite Rplus_0_r. destruct (Rlt_dec a (1 - s)); [cbn [pow]|]; reflexivity.
  - destruct t as [|t1 t]; [discriminate|]. injection L as L. inversion N as [|? ? N1 N2]; subst.
    pose proof (total_nonneg t N2) as HT. cbn [mean].
    exists (fun u => if Rlt_dec t1 ((1 - s) * (1 - Rpower u (1 / INR (S k))))
                     then tail_chance k ((1 - s) * Rpower u (1 / INR (S k))) (total t) else 0).
    split.
    + intros u Hu. set (x := (1 - s) * (1 - Rpower u (1 / INR (S k)))).
      assert (E : forall us, reference_loop (S (S k)) (in_order (S (S k)) (u :: us)) s
                             = x :: reference_loop (S k) (in_order (S k) us) (s + x)).
      { intros us.
        change (reference_loop (S (S k)) (in_order (S (S k)) (u :: us)) s) with
          (let c := (1 - s) * (1 - Rpower (in_order (S (S k)) (u :: us) (S (S k))) (1 / INR (S k))) in
           c :: reference_loop (S k) (in_order (S (S k)) (u :: us)) (s + c)).
        cbv zeta. replace (in_order (S (S k)) (u :: us) (S (S k))) with u by (unfold in_order; now rewrite Nat.sub_diag).
        fold x. f_equal. apply loop_ext. intros j Hj. unfold in_order.
        replace (S (S k) - j)%nat with (S (S k - j)) by lia. reflexivity. }
      destruct (Rlt_dec t1 x) as [H|H].
      * replace ((1 - s) * Rpower u (1 / INR (S k))) with (1 - (s + x)) by (unfold x; ring).
        eapply mean_ext; [|apply (IH (s + x) t)].
        -- intros us _. rewrite E. cbn [above]. now destruct (Rlt_dec t1 x).
        -- unfold x. pose proof (exp_pos (1 / INR (S k) * ln u)) as P. fold (Rpower u (1 / INR (S k))) in P. nra.
        -- exact L.
        -- exact N2.
      * eapply mean_ext; [|apply mean_zero]. intros us _. rewrite E. cbn [above]. now destruct (Rlt_dec t1 x).
    + apply step_integral; [lra | exact N1 | exact HT].
Qed.

Lemma mean_unique n : forall f p p', mean n f p -> mean n f p' -> p = p'.
Proof.
  induction n as [|n IH]; cbn [mean]; intros f p p' M M'; [congruence|].
  destruct M as (g & Hg & I). destruct M' as (g' & Hg' & I').
  assert (I2 : is_RInt g 0 1 p').
  { apply (is_RInt_ext g'); [|exact I']. rewrite Rmin_left, Rmax_right by lra. intros u Hu.
    exact (IH _ _ _ (Hg' u Hu) (Hg u Hu)). }
  rewrite <- (is_RInt_unique _ _ _ _ I). exact (is_RInt_unique _ _ _ _ I2).
Qed.
