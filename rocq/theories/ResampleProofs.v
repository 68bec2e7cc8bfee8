(** Proofs for C163. *)
From Verif Require Import StatModel ResampleSpec.
From Coq Require Import List Arith Lia ZArith QArith Lqa.
Import ListNotations.
Local Open Scope Q_scope.

Definition qn (n : nat) : Q := inject_Z (Z.of_nat n).
Lemma qn_S n : qn (S n) == 1 + qn n.
Proof. unfold qn. rewrite Nat2Z.inj_succ, <- Z.add_1_l, inject_Z_plus. reflexivity. Qed.
Lemma qn_mul a b : qn (a * b) == qn a * qn b.
Proof. unfold qn. now rewrite Nat2Z.inj_mul, inject_Z_mult. Qed.

Lemma sum_app l l' : sum_of (l ++ l') == sum_of l + sum_of l'.
Proof. unfold sum_of. induction l as [|a l IH]; cbn [app fold_right]; [ring|]. rewrite IH. ring. Qed.
Lemma sum_ext {A} (f g : A -> Q) l : (forall x, In x l -> f x == g x) -> sum_of (map f l) == sum_of (map g l).
Proof.
  unfold sum_of. induction l as [|a l IH]; intros H; cbn [map fold_right]; [reflexivity|].
  rewrite (H a) by (now left). rewrite IH; [reflexivity|]. intros x Hx. apply H. now right.
Qed.
Lemma sum_plus {A} (f g : A -> Q) l : sum_of (map (fun x => f x + g x) l) == sum_of (map f l) + sum_of (map g l).
Proof. unfold sum_of. induction l as [|a l IH]; cbn [map fold_right]; [ring|]. rewrite IH. ring. Qed.
Lemma sum_scale {A} (c : Q) (f : A -> Q) l : sum_of (map (fun x => c * f x) l) == c * sum_of (map f l).
Proof. unfold sum_of. induction l as [|a l IH]; cbn [map fold_right]; [ring|]. rewrite IH. ring. Qed.
Lemma sum_const {A} (c : Q) (l : list A) : sum_of (map (fun _ => c) l) == qn (length l) * c.
Proof. unfold sum_of. induction l as [|a l IH]; cbn [map fold_right length]; [unfold qn; cbn; ring|]. rewrite IH, qn_S. ring. Qed.
Lemma sum_flat {A} (f : list A -> Q) (V : list (list A)) (l : list A) :
  sum_of (map f (flat_map (fun x => map (cons x) V) l)) == sum_of (map (fun x => sum_of (map (fun v => f (x :: v)) V)) l).
Proof.
  induction l as [|a l IH]; cbn [flat_map map]; [reflexivity|]. rewrite map_app, sum_app, IH, map_map. reflexivity.
Qed.

(** The resamples themselves. *)
Fixpoint vectors (data : list Q) (k : nat) : list (list Q) :=
  match k with O => [[]] | S k' => flat_map (fun x => map (cons x) (vectors data k')) data end.
Lemma vectors_length data k : length (vectors data k) = (length data ^ k)%nat.
Proof.
  induction k as [|k IH]; cbn [vectors]; [reflexivity|]. rewrite flat_map_concat_map.
  assert (H : forall l, length (concat (map (fun x => map (cons x) (vectors data k)) l)) = (length l * length data ^ k)%nat).
  { induction l as [|a l IHl]; cbn [map concat length]; [reflexivity|]. rewrite app_length, map_length, IHl, IH. lia. }
  rewrite H. cbn [Nat.pow]. reflexivity.
Qed.

Section Moments.
  Variables (data : list Q) (m : Q).
  Hypothesis Hm : mean_of data m.

  Lemma centred : sum_of (map (fun x => x - m) data) == 0.
  Proof.
    rewrite (sum_ext _ (fun x => x + (- m)) data) by (intros; ring). rewrite sum_plus, sum_const, map_id.
    unfold mean_of in Hm. rewrite Hm. unfold qn. ring.
  Qed.

  Definition dev (k : nat) (v : list Q) : Q := sum_of v - qn k * m.
  Lemma dev_cons k x v : dev (S k) (x :: v) == (x - m) + dev k v.
  Proof. unfold dev, sum_of. cbn [fold_right]. rewrite qn_S. ring. Qed.

  Lemma first_moment k : sum_of (map (dev k) (vectors data k)) == 0.
  Proof.
    induction k as [|k IH]; cbn [vectors].
    - unfold dev, qn, sum_of. cbn. ring.
    - rewrite sum_flat. rewrite (sum_ext _ (fun x => qn (length (vectors data k)) * (x - m)) data).
      + rewrite sum_scale, centred. ring.
      + intros x _. rewrite (sum_ext _ (fun v => (x - m) + dev k v)) by (intros v _; apply dev_cons).
        rewrite sum_plus, sum_const, IH. ring.
  Qed.

  Lemma second_moment k :
    qn (length data) * sum_of (map (fun v => dev k v * dev k v) (vectors data k))
    == qn k * qn (length data ^ k) * sum_of (map (fun x => (x - m) * (x - m)) data).
  Proof.
    induction k as [|k IH]; cbn [vectors].
    - unfold dev, qn, sum_of. cbn. ring.
    - rewrite sum_flat.
      set (n := qn (length data)) in *. set (D := sum_of (map (fun x => (x - m) * (x - m)) data)) in *.
      set (V := sum_of (map (fun v => dev k v * dev k v) (vectors data k))) in *.
      rewrite (sum_ext _ (fun x => qn (length (vectors data k)) * ((x - m) * (x - m)) + V) data).
      + rewrite sum_plus, sum_scale, sum_const, vectors_length. fold n. fold D. cbn [Nat.pow]. rewrite qn_mul, qn_S. fold n.
        setoid_replace (n * (qn (length data ^ k) * D + n * V)) with (n * qn (length data ^ k) * D + n * (n * V)) by ring.
        rewrite IH. ring.
      + intros x _. rewrite (sum_ext _ (fun v => (x - m) * (x - m) + (2 * (x - m) * dev k v + dev k v * dev k v))).
        * rewrite sum_plus, sum_const, sum_plus, sum_scale, first_moment. unfold V. ring.
        * intros v _. rewrite dev_cons. ring.
  Qed.
End Moments.

(** ---- sample_wr ---- *)
Lemma map_nth_seq {A} (d : A) : forall l, map (fun i => nth i l d) (seq 0 (length l)) = l.
Proof.
  induction l as [|a l IH]; cbn [length seq map nth]; [reflexivity|]. f_equal. rewrite <- seq_shift, map_map. exact IH.
Qed.
Lemma sequences_spec n k t : In t (sequences n k) -> length t = k /\ Forall (fun i => (i < n)%nat) t.
Proof.
  revert t. induction k as [|k IH]; cbn [sequences]; intros t Ht.
  - destruct Ht as [<-|[]]. split; [reflexivity | constructor].
  - apply in_flat_map in Ht. destruct Ht as (i & Hi & Ht). apply in_map_iff in Ht. destruct Ht as (t' & <- & Ht').
    destruct (IH t' Ht') as [L F]. apply in_seq in Hi. split; [cbn; lia | constructor; [lia | exact F]].
Qed.
Lemma flat_map_nth {A B} (d : A) (g : A -> list B) l : flat_map g l = flat_map (fun i => g (nth i l d)) (seq 0 (length l)).
Proof. rewrite !flat_map_concat_map. rewrite <- (map_map (fun i => nth i l d) g). now rewrite map_nth_seq. Qed.
Lemma sequences_vectors data k : map (map (fun i => nth i data 0)) (sequences (length data) k) = vectors data k.
Proof.
  induction k as [|k IH]; cbn [sequences vectors]; [reflexivity|].
  rewrite (flat_map_nth 0 (fun x => map (cons x) (vectors data k)) data).
  rewrite !flat_map_concat_map, concat_map, !map_map. f_equal. apply map_ext. intros i.
  rewrite <- IH, !map_map. reflexivity.
Qed.
Lemma sample_loop_nth data t : forall js, (forall j, In j js -> (nth j t 0 < length data)%nat) ->
  sample_loop (fun j _ => nth j t 0%nat) data js = Some (map (fun j => nth (nth j t 0%nat) data 0) js).
Proof.
  induction js as [|j js IH]; intros H; cbn [sample_loop map]; [reflexivity|].
  rewrite IH by (intros; apply H; now right). rewrite (nth_error_nth' data 0 (H j (or_introl eq_refl))). reflexivity.
Qed.
Lemma sample_of data k t : In t (sequences (length data) k) ->
  sample_wr (fun j _ => nth j t 0%nat) data k = Some (map (fun i => nth i data 0) t).
Proof.
  intros Ht. destruct (sequences_spec _ _ _ Ht) as [L F]. unfold sample_wr. rewrite sample_loop_nth.
  - f_equal. rewrite <- L. rewrite <- (map_map (fun j => nth j t 0%nat) (fun i => nth i data 0)). now rewrite map_nth_seq.
  - intros j Hj. apply in_seq in Hj. rewrite Forall_forall in F. apply F. apply nth_In. lia.
Qed.

Lemma qsum_sum l : qsum l == sum_of l.
Proof.
  unfold qsum, sum_of. assert (H : forall a, fold_left Qplus l a == a + fold_right Qplus 0 l).
  { induction l as [|b l IH]; intros a; cbn [fold_left fold_right]; [ring|]. rewrite IH. ring. }
  rewrite H. ring.
Qed.
Lemma average_sum l q : average l = Fin q -> q * qn (length l) == sum_of l /\ l <> [].
Proof.
  unfold average. destruct l as [|a l]; [discriminate|]. intros H. injection H as <-. split; [|discriminate].
  rewrite qsum_sum. unfold qlen. fold (qn (length (a :: l))). field. cbn [length]. rewrite qn_S. unfold qn.
  assert (0 <= inject_Z (Z.of_nat (length l))) by (change 0 with (inject_Z 0); rewrite <- Zle_Qle; lia). lra.
Qed.

Lemma nodup_app {A} (l l' : list A) : NoDup l -> NoDup l' -> (forall x, In x l -> ~ In x l') -> NoDup (l ++ l').
Proof.
  induction 1 as [|x l Hx N IH]; intros N' D; cbn [app]; [exact N'|]. constructor.
  - rewrite in_app_iff. intros [H|H]; [contradiction | exact (D x (or_introl eq_refl) H)].
  - apply IH; [exact N'|]. intros y Hy. apply D. now right.
Qed.
Lemma sequences_nodup n k : NoDup (sequences n k).
Proof.
  induction k as [|k IH]; cbn [sequences]; [repeat constructor; intros []|].
  assert (H : forall l, NoDup l -> NoDup (flat_map (fun i => map (cons i) (sequences n k)) l)).
  { induction 1 as [|a l Ha N IHl]; cbn [flat_map]; [constructor|]. apply nodup_app; [|exact IHl|].
    - apply FinFun.Injective_map_NoDup; [|exact IH]. intros u v E. now injection E.
    - intros t Ht Hf. apply in_map_iff in Ht. destruct Ht as (u & <- & _). apply in_flat_map in Hf. destruct Hf as (b & Hb & Hf).
      apply in_map_iff in Hf. destruct Hf as (u' & E & _). injection E as -> _. contradiction. }
  apply H, seq_NoDup.
Qed.
Lemma sequences_in n k : forall t, length t = k -> Forall (fun i => (i < n)%nat) t -> In t (sequences n k).
Proof.
  induction k as [|k IH]; intros [|i t] L F; try discriminate; [now left|].
  injection L as L. inversion F; subst. cbn [sequences]. apply in_flat_map. exists i. split; [apply in_seq; lia|].
  apply in_map. now apply IH.
Qed.
Lemma sequences_length n k : length (sequences n k) = (n ^ k)%nat.
Proof.
  induction k as [|k IH]; cbn [sequences]; [reflexivity|]. rewrite flat_map_concat_map.
  assert (H : forall l, length (concat (map (fun i => map (cons i) (sequences n k)) l)) = (length l * n ^ k)%nat).
  { induction l as [|a l IHl]; cbn [map concat length]; [reflexivity|]. rewrite app_length, map_length, IHl, IH. lia. }
  rewrite H, seq_length. reflexivity.
Qed.
Lemma qn_nonzero n : (n <> 0)%nat -> ~ qn n == 0.
Proof. intros H Z. unfold qn in Z. apply (proj1 (inject_Z_injective _ 0)) in Z. lia. Qed.
