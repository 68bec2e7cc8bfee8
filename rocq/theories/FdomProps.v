(** C140: dominance on IEEE doubles, with infinities and nan. *)
From Coq Require Import List ZArith Bool Reals Lra.
From Flocq Require Import Core BinarySingleNaN.
From Verif Require Import FdomModel FdomSpec FdomProofs.
Import ListNotations.
Local Open Scope Z_scope.

(** Vectors without nan, infinities allowed: domination_cmp tells the three cases apart, swapping the
    arguments negates it, and the tests of NSGA-II and OMOPSO say the same as ea_utils.dominates. *)
Theorem C140_without_nan : forall xs ys a b, values xs a -> values ys b -> length xs = length ys ->
  (f_domination_cmp xs ys = 1 <-> ext_dom a b) /\
  (f_domination_cmp xs ys = -1 <-> ext_dom b a) /\
  (f_domination_cmp xs ys = 0 <-> ~ ext_dom a b /\ ~ ext_dom b a) /\
  f_domination_cmp ys xs = - f_domination_cmp xs ys /\
  (f_dominates xs ys = true <-> ext_dom a b) /\
  (f_nsga_dominates xs ys = true <-> ext_dom a b) /\
  (f_omopso_dominates xs ys = Some true <-> ext_dom a b) /\
  f_omopso_dominates xs ys <> None.
Proof.
  intros xs ys a b Hx Hy L. destruct (cmp_spec xs ys a b Hx Hy L) as (C1 & C2 & C3 & C4).
  assert (D : f_dominates xs ys = true <-> ext_dom a b).
  { rewrite (dominates_values xs ys L). split; [|intro H; exists a, b; auto]. intros (a' & b' & Ha & Hb & H).
    rewrite (values_fun _ _ _ Hx Ha), (values_fun _ _ _ Hy Hb). exact H. }
  do 5 (split; [assumption|]). split; [rewrite nsga_same; assumption|].
  destruct (omopso_values xs ys a b Hx Hy L false) as (r & E & Hr). unfold f_omopso_dominates. rewrite E. split; [|discriminate].
  unfold ext_dom. split.
  - intro H. injection H as ->. destruct (proj1 Hr eq_refl) as [H1 [H2|H2]]; [discriminate|split; assumption].
  - intros [H1 H2]. f_equal. apply Hr. auto.
Qed.
Print Assumptions C140_without_nan.

(** Whatever the vectors hold: ea_utils.dominates and NSGA-II's test are true exactly when neither
    vector has a nan and the first dominates; so both are the same strict partial order. *)
Theorem C140_with_nan : forall xs ys, length xs = length ys ->
  (f_dominates xs ys = true <-> exists a b, values xs a /\ values ys b /\ ext_dom a b) /\
  f_nsga_dominates xs ys = f_dominates xs ys /\
  f_dominates xs xs = false /\
  (forall zs, length ys = length zs -> f_dominates xs ys = true -> f_dominates ys zs = true -> f_dominates xs zs = true).
Proof.
  intros xs ys L. split; [now apply dominates_values|]. split; [now apply nsga_same|]. split; [apply dominates_irr|].
  intros zs L' H1 H2. now apply (dominates_trans xs ys zs).
Qed.
Print Assumptions C140_with_nan.

(** metrics_utils.filter_not_dominated returns the vectors nothing in the input dominates,
    in particular every vector with a nan. *)
Theorem C140_filtered : forall d l, Forall (fun w => length w = d) l -> forall v,
  (In v (f_filter_not_dominated l) <->
   In v l /\ forall w a b, In w l -> values w a -> values v b -> ~ ext_dom a b) /\
  (In v l -> has_nan v -> In v (f_filter_not_dominated l)).
Proof.
  intros d l HL v. split; [|intros; eapply filter_keeps_nan; eassumption].
  rewrite (filter_spec d l HL v). rewrite Forall_forall in HL. split; intros [H1 H2]; split; try exact H1.
  - intros w a b Hw Ha Hb D. assert (X : f_dominates w v = true) by (apply dominates_values; [rewrite (HL w Hw), (HL v H1); reflexivity|exists a, b; auto]).
    rewrite (H2 w Hw) in X. discriminate.
  - intros w Hw. apply not_true_is_false. intro X. apply dominates_values in X; [|rewrite (HL w Hw), (HL v H1); reflexivity].
    destruct X as (a & b & Ha & Hb & D). exact (H2 w a b Hw Ha Hb D).
Qed.
Print Assumptions C140_filtered.

Definition one : double := B754_finite false (2 ^ 52)%positive (-52) (eq_refl : SpecFloat.bounded 53 1024 (2 ^ 52)%positive (-52) = true).
Definition zero : double := B754_zero false.
Definition nan : double := B754_nan.
Definition inf : double := B754_infinity false.

(** With a nan domination_cmp is no longer antisymmetric: each of [nan] and [1.0] is said to be dominated by the other. *)
Theorem C140_antisymmetry_refuted :
  ~ (forall xs ys, length xs = length ys -> f_domination_cmp ys xs = - f_domination_cmp xs ys).
Proof. intro H. specialize (H [nan] [one] eq_refl). vm_compute in H. discriminate. Qed.
Print Assumptions C140_antisymmetry_refuted.

(** With a nan OMOPSO's test and ea_utils.dominates disagree. *)
Theorem C140_agreement_refuted :
  ~ (forall xs ys, length xs = length ys -> f_omopso_dominates xs ys = Some (f_dominates xs ys)).
Proof. intro H. specialize (H [nan; zero] [nan; one] eq_refl). vm_compute in H. discriminate. Qed.
Print Assumptions C140_agreement_refuted.

(** And OMOPSO's test is not transitive then. *)
Theorem C140_omopso_order_refuted :
  ~ (forall xs ys zs, length xs = length ys -> length ys = length zs ->
       f_omopso_dominates xs ys = Some true -> f_omopso_dominates ys zs = Some true -> f_omopso_dominates xs zs = Some true).
Proof. intro H. specialize (H [one; zero] [nan; one] [zero; inf] eq_refl eq_refl eq_refl eq_refl). vm_compute in H. discriminate. Qed.
Print Assumptions C140_omopso_order_refuted.

(** A set with an infinity and a nan: [0; inf] is not dominated, [1; inf] is, [nan; 1] stays. *)
Example C140_example :
  values [zero; inf] [Fin 0; Above] /\ values [one; inf] [Fin (B2R one); Above] /\ ext_dom [Fin 0; Above] [Fin (B2R one); Above] /\
  has_nan [nan; one] /\
  f_filter_not_dominated [[one; inf]; [nan; one]; [zero; inf]] = [[nan; one]; [zero; inf]].
Proof.
  assert (E : B2R one = 1%R). { unfold one, B2R, F2R. cbn [Fnum Fexp cond_Zopp bpow]. rewrite <- (Rinv_r (IZR (2 ^ 52))) by (apply not_0_IZR; discriminate). reflexivity. }
  split; [repeat constructor|]. split; [repeat constructor|]. rewrite E. split.
  - split; [repeat constructor; cbn; lra|]. intro F. inversion F as [|? ? ? ? H]. cbn in H. lra.
  - split; [exists nan; split; [now left|reflexivity]|]. vm_compute. reflexivity.
Qed.
