(** A slice-by-slice measure of dominated regions, used by the hypervolume proofs.  Nodes are
    numbers, [c i q] is coordinate i of node q, the reference point is the origin. *)
From Verif Require Import Spec Base.
Local Open Scope Z_scope.

Fixpoint zsum (f : Z -> Z) (lo : Z) (n : nat) : Z :=
  match n with O => 0 | S n' => zsum f lo n' + f (lo + Z.of_nat n') end.

Lemma zsum_ext f g lo n : (forall t, lo <= t < lo + Z.of_nat n -> f t = g t) -> zsum f lo n = zsum g lo n.
Proof.
  induction n as [|n IH]; intros H; [reflexivity|]. cbn [zsum].
  rewrite IH, (H (lo + Z.of_nat n)); [reflexivity| lia |]. intros t Ht. apply H. lia.
Qed.

Lemma zsum_le f g lo n : (forall t, lo <= t < lo + Z.of_nat n -> f t <= g t) -> zsum f lo n <= zsum g lo n.
Proof.
  induction n as [|n IH]; intros H; [reflexivity|]. cbn [zsum].
  assert (f (lo + Z.of_nat n) <= g (lo + Z.of_nat n)) by (apply H; lia).
  assert (zsum f lo n <= zsum g lo n) by (apply IH; intros; apply H; lia). lia.
Qed.

Lemma zsum_le_eq f g lo n : (forall t, lo <= t < lo + Z.of_nat n -> f t <= g t) ->
  zsum g lo n <= zsum f lo n -> forall t, lo <= t < lo + Z.of_nat n -> g t <= f t.
Proof.
  induction n as [|n IH]; intros H HS t Ht; [lia|]. cbn [zsum] in HS.
  assert (f (lo + Z.of_nat n) <= g (lo + Z.of_nat n)) by (apply H; lia).
  assert (zsum f lo n <= zsum g lo n) by (apply zsum_le; intros; apply H; lia).
  destruct (Z.eq_dec t (lo + Z.of_nat n)) as [->|Hne]; [lia|].
  apply IH; [intros; apply H; lia | lia | lia].
Qed.

Lemma zsum_app f lo n m : zsum f lo (n + m) = zsum f lo n + zsum f (lo + Z.of_nat n) m.
Proof.
  induction m as [|m IH]; [rewrite Nat.add_0_r; cbn; lia|].
  rewrite Nat.add_succ_r. cbn [zsum]. rewrite IH.
  replace (lo + Z.of_nat (n + m)) with (lo + Z.of_nat n + Z.of_nat m) by lia. lia.
Qed.

Lemma zsum_const f lo n v : (forall t, lo <= t < lo + Z.of_nat n -> f t = v) -> zsum f lo n = v * Z.of_nat n.
Proof.
  induction n as [|n IH]; intros H; [cbn; lia|]. cbn [zsum].
  rewrite IH by (intros; apply H; lia). rewrite H by lia. lia.
Qed.

Section Measure.
  Variable c : nat -> nat -> Z.
  Variable L : nat.          (* no coordinate is below -L *)

  Fixpoint V (k : nat) (S : list nat) : Z :=
    match k with
    | O => match S with [] => 0 | _ => 1 end
    | Datatypes.S k' => zsum (fun t => V k' (filter (fun q => c k' q <=? t) S)) (- Z.of_nat L) L
    end.

  (** Volume of the slices below [t0] in dimension [k]. *)
  Definition W (k : nat) (S : list nat) (t0 : Z) : Z :=
    zsum (fun t => V k (filter (fun q => c k q <=? t) S)) (- Z.of_nat L) (Z.to_nat (t0 + Z.of_nat L)).

  Definition leq_upto (k : nat) (p q : nat) : Prop := forall i, (i < k)%nat -> c i p <= c i q.

  Lemma V_nil k : V k [] = 0.
  Proof.
    induction k as [|k IH]; [reflexivity|]. cbn [V].
    rewrite (zsum_const _ _ _ 0); [lia|]. intros t _. cbn. apply IH.
  Qed.

  Lemma V_cover k : forall S S', (forall q, In q S -> exists p, In p S' /\ leq_upto k p q) -> V k S <= V k S'.
  Proof.
    induction k as [|k IH]; intros S S' H.
    - cbn. destruct S as [|q S]; [destruct S'; lia|].
      destruct (H q) as (p & Hp & _); [left; reflexivity|]. destruct S'; [destruct Hp | lia].
    - cbn [V]. apply zsum_le. intros t _. apply IH. intros q Hq. apply filter_In in Hq.
      destruct Hq as [Hq Ht]. apply Z.leb_le in Ht. destruct (H q Hq) as (p & Hp & Hle).
      exists p. split; [apply filter_In; split; [exact Hp | apply Z.leb_le]|].
      + specialize (Hle k ltac:(lia)). lia.
      + intros i Hi. apply Hle. lia.
  Qed.

  Lemma V_incl k S S' : incl S S' -> V k S <= V k S'.
  Proof. intros H. apply V_cover. intros q Hq. exists q. split; [apply H, Hq | intros i _; lia]. Qed.

  Lemma V_same k S S' : incl S S' -> incl S' S -> V k S = V k S'.
  Proof. intros H H'. apply Z.le_antisymm; apply V_incl; assumption. Qed.

  Lemma V_perm k S S' : Permutation S S' -> V k S = V k S'.
  Proof.
    intros H. apply V_same; intros x; apply Permutation_in; [exact H | symmetry; exact H].
  Qed.

  Lemma V_nonneg k S : 0 <= V k S.
  Proof. rewrite <- (V_nil k). apply V_incl. intros x []. Qed.

  Lemma V_redundant k S q : (exists p, In p S /\ leq_upto k p q) -> V k (S ++ [q]) = V k S.
  Proof.
    intros (p & Hp & Hle). apply Z.le_antisymm; [|apply V_incl; intros x Hx; apply in_or_app; left; exact Hx].
    apply V_cover. intros x Hx. apply in_app_or in Hx. destruct Hx as [Hx|[<-|[]]].
    - exists x. split; [exact Hx | intros i _; lia].
    - exists p. split; assumption.
  Qed.

  (** A point whose addition does not increase the measure is covered. *)
  Lemma V_no_gain k : forall S q,
    (forall i, (i < k)%nat -> - Z.of_nat L <= c i q < 0) ->
    V k (S ++ [q]) <= V k S -> exists p, In p S /\ leq_upto k p q.
  Proof.
    induction k as [|k IH]; intros S q Hq H.
    - cbn in H. destruct S as [|p S]; [cbn in H; lia|]. exists p.
      split; [left; reflexivity | intros i Hi; lia].
    - cbn [V] in H.
      assert (Hk : - Z.of_nat L <= c k q < 0) by (apply Hq; lia).
      pose proof (zsum_le_eq (fun t => V k (filter (fun q0 => c k q0 <=? t) S))
                    (fun t => V k (filter (fun q0 => c k q0 <=? t) (S ++ [q]))) (- Z.of_nat L) L) as Hz.
      cbn beta in Hz.
      assert (Hz' : V k (filter (fun q0 => c k q0 <=? c k q) (S ++ [q])) <= V k (filter (fun q0 => c k q0 <=? c k q) S)).
      { apply Hz; [|exact H | lia]. intros t _. apply V_incl. intros x Hx. apply filter_In in Hx.
        apply filter_In. split; [apply in_or_app; left; apply Hx | apply Hx]. }
      rewrite filter_app in Hz'. cbn [filter] in Hz'. rewrite Z.leb_refl in Hz'.
      destruct (IH _ q ltac:(intros; apply Hq; lia) Hz') as (p & Hp & Hle).
      apply filter_In in Hp. destruct Hp as [Hp Hpk]. apply Z.leb_le in Hpk.
      exists p. split; [exact Hp|]. intros i Hi. destruct (Nat.eq_dec i k) as [->|Hne]; [exact Hpk|].
      apply Hle. lia.
  Qed.

  Lemma W_zero k S : W k S 0 = V (Datatypes.S k) S.
  Proof. unfold W. cbn [V]. rewrite Z.add_0_l, Nat2Z.id. reflexivity. Qed.

  Lemma W_step k S a b : - Z.of_nat L <= a -> a <= b -> (forall q, In q S -> c k q <= a) ->
    W k S b = W k S a + V k S * (b - a).
  Proof.
    intros Ha Hab HS. unfold W.
    replace (Z.to_nat (b + Z.of_nat L)) with (Z.to_nat (a + Z.of_nat L) + Z.to_nat (b - a))%nat by lia.
    rewrite zsum_app. f_equal.
    rewrite (zsum_const _ _ _ (V k S)); [rewrite Z2Nat.id by lia; reflexivity|].
    intros t Ht. rewrite filter_all; [reflexivity|]. intros q Hq. apply Z.leb_le.
    specialize (HS q Hq). lia.
  Qed.

  Lemma W_snoc k S q : - Z.of_nat L <= c k q -> W k (S ++ [q]) (c k q) = W k S (c k q).
  Proof.
    intros H. unfold W. apply zsum_ext. intros t Ht. rewrite filter_app. cbn [filter].
    destruct (Z.leb_spec (c k q) t); [lia|]. rewrite app_nil_r. reflexivity.
  Qed.

  Lemma W_nil k t : W k [] t = 0.
  Proof. unfold W. rewrite (zsum_const _ _ _ 0); [lia|]. intros x _. cbn. apply V_nil. Qed.
End Measure.
