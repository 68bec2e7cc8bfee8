(** C163: what the resampled averages scatter around, and how much. *)
From Verif Require Import StatModel ResampleSpec ResampleProofs.
From Coq Require Import List Arith Lia ZArith QArith Lqa.
Import ListNotations.
Local Open Scope Q_scope.

(** The average of the resample of size [k] that the draws [t] give: the j-th call of randint(0, N - 1), for N data, gives
    the j-th of [t].  A call with another bound would give a position outside the data, and so an IndexError. *)
Definition resampled_average (data : list Q) (k : nat) (t : list nat) : option ext :=
  match sample_wr (fun j bound => if (bound =? length data - 1)%nat then nth j t 0%nat else length data) data k with
  | Some s => Some (average s)
  | None => None
  end.

(** The number, where it is one. *)
Definition number (o : option ext) : Q := match o with Some (Fin q) => q | _ => 0 end.

Lemma sample_bound r1 r2 data : (forall j, r1 j (length data - 1) = r2 j (length data - 1))%nat ->
  forall js, sample_loop r1 data js = sample_loop r2 data js.
Proof. intros H js. induction js as [|j js IH]; [reflexivity|]. cbn [sample_loop]. now rewrite H, IH. Qed.
Lemma resampled_dev data k t m : (1 <= k)%nat -> In t (sequences (length data) k) ->
  exists q, resampled_average data k t = Some (Fin q) /\ q - m == dev m k (map (fun i => nth i data 0) t) / qn k.
Proof.
  intros Hk Ht. destruct (sequences_spec _ _ _ Ht) as [L _]. unfold resampled_average, sample_wr.
  rewrite (sample_bound _ (fun j _ => nth j t 0%nat)) by (intros j; now rewrite Nat.eqb_refl). fold (sample_wr (fun j _ => nth j t 0%nat) data k).
  rewrite (sample_of data k t Ht).
  set (s := map _ t). assert (Ls : length s = k) by (unfold s; now rewrite map_length).
  destruct (average s) as [|q] eqn:E; [destruct s; [cbn in Ls; lia | discriminate]|]. exists q. split; [reflexivity|].
  destruct (average_sum _ _ E) as [A _]. rewrite Ls in A. unfold dev. rewrite <- A. field. apply qn_nonzero. lia.
Qed.

(** The draws ranged over are all the sequences of [k] positions, each once; for k >= 1 each gives a number. *)
Theorem C163_draws :
  forall (data : list Q) (k : nat), (1 <= k)%nat ->
    (forall t, In t (sequences (length data) k) <-> length t = k /\ Forall (fun i => (i < length data)%nat) t) /\
    NoDup (sequences (length data) k) /\ length (sequences (length data) k) = (length data ^ k)%nat /\
    (forall t, In t (sequences (length data) k) -> exists q, resampled_average data k t = Some (Fin q)).
Proof.
  intros data k Hk. split; [|split; [apply sequences_nodup | split; [apply sequences_length|]]].
  - intros t. split; [apply sequences_spec | intros (L & F); now apply sequences_in].
  - intros t Ht. destruct (resampled_dev data k t 0 Hk Ht) as (q & E & _). now exists q.
Qed.
Print Assumptions C163_draws.

(** The averages scatter around the mean of the data. *)
Theorem C163_unbiased :
  forall (data : list Q) (k : nat) (m : Q), data <> [] -> (1 <= k)%nat -> mean_of data m ->
    expected (length data) k (fun t => number (resampled_average data k t)) == m.
Proof.
  intros data k m N Hk Hm. unfold expected.
  assert (Np : (length data ^ k <> 0)%nat) by (apply Nat.pow_nonzero; destruct data; [congruence | discriminate]).
  rewrite (sum_ext _ (fun t => m + / qn k * dev m k (map (fun i => nth i data 0) t))).
  - rewrite sum_plus, sum_const, sum_scale, <- (map_map (map (fun i => nth i data 0)) (dev m k)), sequences_vectors, (first_moment data m Hm).
    rewrite sequences_length. fold (qn (length data ^ k)). field. split; now apply qn_nonzero; try lia.
  - intros t Ht. destruct (resampled_dev data k t m Hk Ht) as (q & -> & E). cbn [number]. unfold Qdiv in E.
    rewrite (Qmult_comm (/ qn k)), <- E. ring.
Qed.
Print Assumptions C163_unbiased.

(** Their variance is that of the data divided by the size of the resamples. *)
Theorem C163_variance :
  forall (data : list Q) (k : nat) (m v : Q), data <> [] -> (1 <= k)%nat -> mean_of data m -> variance_of data v ->
    expected (length data) k (fun t => (number (resampled_average data k t) - m) * (number (resampled_average data k t) - m))
    == v / inject_Z (Z.of_nat k).
Proof.
  intros data k m v N Hk Hm (m' & Hm' & Hv). unfold expected.
  assert (Nd : (length data <> 0)%nat) by (destruct data; [congruence | discriminate]).
  assert (Np : (length data ^ k <> 0)%nat) by (now apply Nat.pow_nonzero).
  pose proof (qn_nonzero _ Nd) as Qd. pose proof (qn_nonzero _ Np) as Qp. pose proof (qn_nonzero k ltac:(lia)) as Qk.
  assert (Em : m' == m).
  { unfold mean_of in Hm, Hm'. rewrite Hm in Hm'. fold (qn (length data)) in Hm'. apply (Qmult_inj_l m' m (qn (length data)) Qd). now symmetry. }
  rewrite (sum_ext _ (fun x => (x - m) * (x - m)) data) in Hv by (intros; rewrite Em; reflexivity).
  rewrite (sum_ext _ (fun t => / (qn k * qn k) * (dev m k (map (fun i => nth i data 0) t) * dev m k (map (fun i => nth i data 0) t)))).
  - rewrite sum_scale, <- (map_map (map (fun i => nth i data 0)) (fun s => dev m k s * dev m k s)), sequences_vectors.
    pose proof (second_moment data m Hm k) as S2. rewrite Hv in S2. fold (qn (length data)) in S2.
    assert (S3 : sum_of (map (fun v0 => dev m k v0 * dev m k v0) (vectors data k)) == qn k * qn (length data ^ k) * v).
    { apply (Qmult_inj_l _ _ (qn (length data)) Qd). rewrite S2. ring. }
    rewrite S3. fold (qn k). fold (qn (length data ^ k)). field. auto.
  - intros t Ht. destruct (resampled_dev data k t m Hk Ht) as (q & -> & E). cbn [number]. rewrite E. field. exact Qk.
Qed.
Print Assumptions C163_variance.

(** The data 1, 2, 6 resampled in pairs: mean 3, variance (14/3)/2. *)
Example C163_example :
  mean_of [1; 2; 6] 3 /\ variance_of [1; 2; 6] (14 # 3) /\
  expected 3 2 (fun t => number (resampled_average [1; 2; 6] 2 t)) == 3 /\
  expected 3 2 (fun t => (number (resampled_average [1; 2; 6] 2 t) - 3) * (number (resampled_average [1; 2; 6] 2 t) - 3)) == 7 # 3.
Proof. repeat split; try (vm_compute; reflexivity). exists 3. split; vm_compute; reflexivity. Qed.
