(** C125: a deme of HGS is told the objectives of the problem, within the configured error. *)
From Coq Require Import Reals List Lra Lia Psatz.
From Verif Require Import ProbModel ProbSpec ProbProofs ProbCurve BlurModel BlurSpec BlurProofs.
Import ListNotations.
Local Open Scope R_scope.

(** Without error, on every problem with non-negative objectives, ... *)
Theorem C125_exact_when_nonnegative : forall P, nonnegative P -> exact_without_error P /\ ranks_without_error P.
Proof. intros P H. split; [|apply ranks]; now apply exact. Qed.
Print Assumptions C125_exact_when_nonnegative.

(** ... such as these. *)
Theorem C125_exact_on_benchmarks :
  Forall (fun P => nonnegative P /\ exact_without_error P /\ ranks_without_error P)
    [ZDT1; ZDT2; ZDT4; ZDT6; UF1; UF2; UF3; UF4; UF5; UF6; UF7; UF8; UF9; UF10; ackley; EWA1; EWA2].
Proof. eapply Forall_impl; [|exact all_nonneg]. intros P H. split; [exact H | now apply C125_exact_when_nonnegative]. Qed.
Print Assumptions C125_exact_on_benchmarks.

(** With error [e] and draws within three standard deviations the values are within the relative error [e], ... *)
Theorem C125_within_error : forall P fitness_errors level e x f zs f',
  nonnegative P -> nth_error fitness_errors level = Some e -> 0 <= e <= 1 -> Forall (fun z => -3 <= z <= 3) zs ->
  admissible P x -> evaluates P x f -> told P fitness_errors level zs x f' ->
  Forall2 (fun true_value v => (1 - e) * true_value <= v <= (1 + e) * true_value) f f'.
Proof.
  intros P errors level e x f zs f' N He E Z A Ev T. pose proof (N _ _ A Ev) as Nf.
  destruct (told_values _ _ _ _ _ _ _ _ He Ev T) as (L & ->). clear - E Z Nf L. revert zs Z L.
  induction Nf as [|v f Hv _ IH]; intros [|z zs] Z L; cbn in *; try discriminate; constructor.
  - apply blur_bounds; try assumption. now inversion Z.
  - apply IH; [now inversion Z | lia].
Qed.
Print Assumptions C125_within_error.

(** ... so that a vector better by that margin is never taken for a worse one. *)
Theorem C125_clear_wins_are_seen : forall P fitness_errors level e x y f g zs zs' f' g',
  nonnegative P -> nth_error fitness_errors level = Some e -> 0 <= e <= 1 ->
  Forall (fun z => -3 <= z <= 3) zs -> Forall (fun z => -3 <= z <= 3) zs' ->
  admissible P x -> evaluates P x f -> told P fitness_errors level zs x f' ->
  admissible P y -> evaluates P y g -> told P fitness_errors level zs' y g' ->
  Forall2 (fun a b => (1 + e) * a <= (1 - e) * b) f g -> Forall2 Rle f' g' /\ ~ better g' f'.
Proof.
  intros P errors level e x y f g zs zs' f' g' N He E Z Z' Ax Ex Tx Ay Ey Ty M.
  pose proof (C125_within_error _ _ _ _ _ _ _ _ N He E Z Ax Ex Tx) as Bx. pose proof (C125_within_error _ _ _ _ _ _ _ _ N He E Z' Ay Ey Ty) as By.
  assert (H : Forall2 Rle f' g').
  { clear - Bx By M. revert f' g' Bx By. induction M as [|a b f g Hab _ IH]; intros f' g' Bx By; inversion Bx; inversion By; subst; constructor; [lra | auto]. }
  split; [exact H|]. intros (H' & Ne). apply Ne. clear - H H'. induction H as [|a b f' g' Hab _ IH]; [reflexivity|].
  inversion H'; subst. f_equal; [lra | auto].
Qed.
Print Assumptions C125_clear_wins_are_seen.

(** Refuted in general: the absolute value is taken, and kursawe and ZDT3 have negative objectives.  A vector that dominates
    another one there is reported as dominated by it, with no error configured at all, ... *)
Theorem C125_refuted : ranked_backwards kursawe /\ ranked_backwards ZDT3.
Proof. split; [apply kursawe_backwards | apply ZDT3_backwards]. Qed.
Print Assumptions C125_refuted.

(** ... and on kursawe all demes maximise the first objective instead of minimising it. *)
Theorem C125_kursawe_maximised_refuted : forall fitness_errors level x y a b c d zs zs' a' b' c' d',
  nth_error fitness_errors level = Some 0 -> admissible kursawe x -> admissible kursawe y ->
  evaluates kursawe x [a; b] -> evaluates kursawe y [c; d] ->
  told kursawe fitness_errors level zs x [a'; b'] -> told kursawe fitness_errors level zs' y [c'; d'] ->
  (a < c <-> c' < a').
Proof.
  intros errors level x y a b c d zs zs' a' b' c' d' He Ax Ay Ex Ey Tx Ty.
  pose proof (told_abs _ _ _ _ _ _ _ He Ex Tx) as X. pose proof (told_abs _ _ _ _ _ _ _ He Ey Ty) as Y.
  injection X as -> _. injection Y as -> _.
  assert (S : forall x a b, admissible kursawe x -> evaluates kursawe x [a; b] -> a < 0).
  { clear. intros x a b A E. apply adm_length in A. destruct x as [|u [|v r]]; try discriminate. injection E as E _. now apply kursawe_a_neg in E. }
  rewrite (Rabs_left a), (Rabs_left c) by eauto. lra.
Qed.
Print Assumptions C125_kursawe_maximised_refuted.

(** A case: ZDT2 at (1/2, 0, ..., 0), without and with an error of 30 per cent. *)
Example C125_example :
  admissible ZDT2 (0.5 :: repeat 0 29) /\ evaluates ZDT2 (0.5 :: repeat 0 29) [0.5; 0.75] /\
  told ZDT2 [0; 0; 0] 1 [2; -5] (0.5 :: repeat 0 29) [0.5; 0.75] /\ told ZDT2 [0; 0.3; 0] 1 [1; -1] (0.5 :: repeat 0 29) [0.55; 0.675].
Proof.
  assert (E : evaluates ZDT2 (0.5 :: repeat 0 29) [0.5; 0.75]).
  { unfold evaluates, ZDT2, emoa. cbn [map p_fits]. unfold subfit1, subfit2. cbn [tl get nth_error bind f1a]. rewrite ga_zero. cbn [bind].
    unfold hb. rewrite div_ok by lra. cbn [bind map]. replace (1 * (1 - (0.5 / 1) ^ 2)) with 0.75 by (replace (0.5 / 1) with 0.5 by lra; lra). reflexivity. }
  split; [|split; [exact E|]].
  { unfold admissible, ZDT2, emoa. cbn [p_dims repeat]. repeat (apply Forall2_cons); [cbn; lra ..|apply Forall2_nil]. }
  pose proof (f_equal (fun l => nth 0 l None) E) as E1. pose proof (f_equal (fun l => nth 1 l None) E) as E2. cbn [nth map p_fits ZDT2 emoa] in E1, E2. unfold told, blurred_fitnesses. cbn [p_fits ZDT2 emoa map combine length].
  split; (split; [|reflexivity]); repeat (apply Forall2_cons); try apply Forall2_nil; cbn [fst snd]; unfold blurred_f;
    rewrite ?E1, ?E2; cbn [bind nth_error]; f_equal; rewrite Rabs_pos_eq by lra; lra.
Qed.
