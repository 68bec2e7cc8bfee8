(** Proofs for C159. *)
From Coq Require Import Reals List Lra Lia.
From Coquelicot Require Import Coquelicot.
From Verif Require Import OpModel RndModel SimplexSpec SimplexProofs UnifSpec.
Import ListNotations.
Local Open Scope R_scope.

Lemma mean_scale n c : forall f p, mean n f p -> mean n (fun us => c * f us) (c * p).
Proof.
  induction n as [|n IH]; cbn [mean]; intros f p M; [now rewrite M|].
  destruct M as (g & Hg & I). exists (fun u => c * g u). split.
  - intros u Hu. apply (IH (fun us => f (u :: us))). now apply Hg.
  - exact (is_RInt_scal g 0 1 c p I).
Qed.

(** A factor for each draw. *)
Fixpoint factors (hs : list (R -> R)) (us : list R) : R :=
  match hs with [] => 1 | h :: hs' => h (hd 0 us) * factors hs' (tl us) end.

Lemma mean_factors : forall hs ps, Forall2 (fun h p => is_RInt h 0 1 p) hs ps -> mean (length hs) (factors hs) (product ps).
Proof.
  induction 1 as [|h p hs ps I F IH]; cbn [length mean factors product fold_right]; [reflexivity|].
  fold (product ps). exists (fun u => h u * product ps). split.
  - intros u _. cbn [hd tl]. now apply mean_scale.
  - apply (is_RInt_ext (fun u => product ps * h u)); [intros; apply Rmult_comm|]. rewrite (Rmult_comm p).
    exact (is_RInt_scal h 0 1 (product ps) p I).
Qed.

(** The indicator for one gene, with bounds and threshold. *)
Definition gene (dt : (R * R) * R) (u : R) : R :=
  if Rlt_dec (snd dt) (fst (fst dt) + (snd (fst dt) - fst (fst dt)) * u) then 1 else 0.

Lemma gene_integral a b t : a < b -> a <= t <= b -> is_RInt (gene ((a, b), t)) 0 1 ((b - t) / (b - a)).
Proof.
  intros H Ht. set (c := (t - a) / (b - a)).
  assert (Ec : c * (b - a) = t - a) by (unfold c; field; lra).
  assert (0 <= c <= 1) by nra.
  assert (I1 : is_RInt (gene ((a, b), t)) 0 c 0).
  { apply (is_RInt_ext (fun _ => 0)); [|apply is_RInt_zero]. rewrite Rmin_left, Rmax_right by lra. intros u Hu.
    unfold gene. cbn [fst snd]. destruct (Rlt_dec _ _); [nra | reflexivity]. }
  assert (I2 : is_RInt (gene ((a, b), t)) c 1 ((1 - c) * 1)).
  { apply (is_RInt_ext (fun _ => 1)); [|apply is_RInt_const_R]. rewrite Rmin_left, Rmax_right by lra. intros u Hu.
    unfold gene. cbn [fst snd]. destruct (Rlt_dec _ _); [reflexivity | nra]. }
  replace ((b - t) / (b - a)) with (plus 0 ((1 - c) * 1)) by (unfold plus; cbn; unfold c; field; lra).
  exact (is_RInt_Chasles _ _ _ _ _ _ I1 I2).
Qed.

Fixpoint all_above (L : list ((R * R) * R)) (us : list R) : Prop :=
  match L with
  | [] => True
  | dt :: L' => snd dt < fst (fst dt) + (snd (fst dt) - fst (fst dt)) * hd 0 us /\ all_above L' (tl us)
  end.
Lemma factors_indicator : forall L us,
  (all_above L us -> factors (map gene L) us = 1) /\ (~ all_above L us -> factors (map gene L) us = 0).
Proof.
  induction L as [|dt L IH]; intros us; cbn [all_above map factors]; [split; [reflexivity | tauto]|].
  destruct (IH (tl us)) as [A B]. unfold gene at 1 3. destruct (Rlt_dec _ _) as [H|H].
  - split; [intros (_ & H'); rewrite (A H'); ring | intros N; rewrite B by tauto; ring].
  - split; [tauto | intros _; ring].
Qed.
Lemma skipn_tl {A} n : forall l : list A, skipn n (tl l) = skipn (S n) l.
Proof. intros [|a l]; [now rewrite !skipn_nil | reflexivity]. Qed.
Lemma all_above_app : forall L L' us, all_above (L ++ L') us <-> all_above L us /\ all_above L' (skipn (length L) us).
Proof.
  induction L as [|dt L IH]; intros L' us; cbn [app all_above length]; [cbn [skipn]; tauto|].
  rewrite IH, skipn_tl. tauto.
Qed.

Lemma nth_tl j : forall l : list R, nth (S j) l 0 = nth j (tl l) 0.
Proof. intros [|a l]; [now destruct j | reflexivity]. Qed.
Lemma nth_skipn' n : forall j (l : list R), nth (n + j) l 0 = nth j (skipn n l) 0.
Proof.
  induction n as [|n IH]; intros j l; [reflexivity|]. cbn [Nat.add]. rewrite nth_tl, IH. now rewrite skipn_tl.
Qed.

Lemma fvector_ext dims : forall d d' j, (forall i, d i = d' i) -> fvector (fun x => x) d j dims = fvector (fun x => x) d' j dims.
Proof. induction dims as [|[a b] dims IH]; intros d d' j H; cbn [fvector]; [reflexivity|]. now rewrite H, (IH d d' (S j) H). Qed.
Lemma fvector_shift dims : forall d j, fvector (fun x => x) d (S j) dims = fvector (fun x => x) (fun i => d (S i)) j dims.
Proof. induction dims as [|[a b] dims IH]; intros d j; cbn [fvector]; [reflexivity|]. now rewrite IH. Qed.

Lemma vector_above dims : forall t us, length t = length dims ->
  (Forall2 Rlt t (fvector (fun x => x) (fun j => nth j us 0) 0 dims) <-> all_above (combine dims t) us).
Proof.
  induction dims as [|[a b] dims IH]; intros [|x t] us L; try discriminate; cbn [fvector combine all_above].
  - split; intros; constructor.
  - injection L as L. cbn [fst snd]. rewrite fvector_shift, (fvector_ext dims _ (fun j => nth j (tl us) 0) 0 (fun i => nth_tl i us)).
    rewrite <- (IH t (tl us) L). unfold funiform.
    replace (nth 0 us 0) with (hd 0 us) by (now destruct us).
    split; [intros F; inversion F; subst; auto | intros (F1 & F2); now constructor].
Qed.

Definition triples (dims : rbox) (ts : list (list R)) : list ((R * R) * R) := concat (map (combine dims) ts).

Lemma population_above dims : forall ts us, List.Forall (fun t => length t = length dims) ts ->
  (Forall2 (Forall2 Rlt) ts (fpopulation (fun x => x) (length ts) dims (row_by_row (length dims) us))
   <-> all_above (triples dims ts) us).
Proof.
  induction ts as [|t ts IH]; intros us F; unfold triples; cbn [map concat length]; [cbn; split; intros; constructor|].
  inversion F as [|? ? Ft F']; subst. fold (triples dims ts). rewrite all_above_app.
  replace (length (combine dims t)) with (length dims) by (rewrite combine_length; lia).
  unfold fpopulation. cbn [seq map]. rewrite <- seq_shift, map_map.
  assert (E : map (fun i => fvector (fun x => x) (row_by_row (length dims) us (S i)) 0 dims) (seq 0 (length ts))
              = fpopulation (fun x => x) (length ts) dims (row_by_row (length dims) (skipn (length dims) us))).
  { unfold fpopulation. apply map_ext. intros i. apply fvector_ext. intros j. unfold row_by_row.
    replace (S i * length dims + j)%nat with (length dims + (i * length dims + j))%nat by lia. apply nth_skipn'. }
  rewrite E. rewrite <- (IH (skipn (length dims) us) F'). rewrite <- (vector_above dims t us Ft).
  rewrite (fvector_ext dims (row_by_row (length dims) us 0) (fun j => nth j us 0) 0) by (intros; reflexivity).
  split; [intros G; inversion G; subst; auto | intros (G1 & G2); now constructor].
Qed.

Lemma product_app l l' : product (l ++ l') = product l * product l'.
Proof. unfold product. induction l as [|a l IH]; cbn [app fold_right]; [now rewrite Rmult_1_l|]. rewrite IH. ring. Qed.

Definition ratio (dt : (R * R) * R) : R := (snd (fst dt) - snd dt) / (snd (fst dt) - fst (fst dt)).

Lemma triples_integrals dims : List.Forall (fun d => fst d < snd d) dims -> forall ts,
  List.Forall (Forall2 (fun d x => fst d <= x <= snd d) dims) ts ->
  Forall2 (fun h p => is_RInt h 0 1 p) (map gene (triples dims ts)) (map ratio (triples dims ts)).
Proof.
  intros V ts F.
  assert (P : List.Forall (fun dt : (R * R) * R => fst (fst dt) < snd (fst dt) /\ fst (fst dt) <= snd dt <= snd (fst dt)) (triples dims ts)).
  { unfold triples. induction F as [|t ts Ft F IH]; cbn [map concat]; [constructor|]. apply Forall_app. split; [|exact IH].
    clear IH F. revert V. induction Ft as [|d x dims t Hd Ft IH]; cbn [combine]; intros V; [constructor|]. inversion V; subst.
    constructor; [cbn [fst snd]; auto | now apply IH]. }
  induction P as [|[[a b] t] L (H1 & H2) P IH]; cbn [map]; constructor; [|exact IH]. cbn [fst snd] in *. now apply gene_integral.
Qed.

Lemma product_triples dims ts : product (map ratio (triples dims ts)) = product (map (share dims) ts).
Proof.
  induction ts as [|t ts IH]; unfold triples; cbn [map concat]; [reflexivity|]. rewrite map_app, product_app.
  fold (triples dims ts). rewrite IH. reflexivity.
Qed.

Lemma triples_length dims ts : List.Forall (fun t => length t = length dims) ts -> length (triples dims ts) = (length ts * length dims)%nat.
Proof.
  unfold triples. induction 1 as [|t ts H F IH]; cbn [map concat length]; [reflexivity|]. rewrite app_length, combine_length, IH. lia.
Qed.
