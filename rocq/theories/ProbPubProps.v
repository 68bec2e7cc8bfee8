(** C156: the benchmark problems are the published test functions. *)
From Coq Require Import Reals List Lra Lia.
From Verif Require Import ProbModel ProbSpec ProbProofs ProbPubSpec ProbPubProofs.
Import ListNotations.
Local Open Scope R_scope.

(** On every vector within the bounds, the objectives of [P] return what [f] says. *)
Definition is_published (P : problem) (f : (nat -> R) -> list R) : Prop :=
  forall x, admissible P x -> evaluates P x (f (variable x)).

(** The same up to [eps] in every objective. *)
Definition is_published_within (eps : R) (P : problem) (f : (nat -> R) -> list R) : Prop :=
  forall x, admissible P x -> exists v, evaluates P x v /\ within eps v (f (variable x)).

(** Nine problems are exactly the published ones, with 30 variables (UF5 and ZDT4: 10,
    Kursawe: 3, Ackley: 2, its one objective given twice). *)
Theorem C156_exact_partial :
  is_published UF1 (uf1 30) /\ is_published UF2 (uf2 30) /\ is_published UF3 (uf3 30) /\
  is_published UF4 (uf4 30) /\ is_published UF5 (fun x => uf5 10 x 10 0.1) /\
  is_published UF7 (uf7 30) /\ is_published ZDT4 (zdt4 10) /\
  is_published kursawe (kursawe_published 3) /\
  is_published ackley (fun x => [ackley_published 2 x; ackley_published 2 x]).
Proof.
  repeat split; intros x H;
    [now apply UF1_published|now apply UF2_published|now apply UF3_published
    |now apply UF4_published|now apply UF5_published|now apply UF7_published
    |now apply ZDT4_published|now apply kursawe_published_ok|now apply ackley_published_ok].
Qed.
Print Assumptions C156_exact_partial.

(** The others of the first family carry rounded constants (9/29 to sixteen digits, and 5.19615
    for three times the square root of three). *)
Theorem C156_rounded_constants_partial :
  is_published_within (1 / 1000000000000000) ZDT1 (zdt1 30) /\
  is_published_within (1 / 1000000000000000) ZDT2 (zdt2 30) /\
  is_published_within (1 / 1000000000000000) ZDT3 (zdt3 30) /\
  is_published_within (1 / 20000) ZDT6 (zdt6 10).
Proof.
  repeat split; intros x H;
    [now apply ZDT1_published|now apply ZDT2_published|now apply ZDT3_published
    |now apply ZDT6_published].
Qed.
Print Assumptions C156_rounded_constants_partial.

(** UF6 is published with two gaps in its front; the program takes the number of variables
    instead, which gives thirty. *)
Theorem C156_uf6_thirty_gaps_partial : is_published UF6 (fun x => uf6 30 x 30 0.1).
Proof. exact UF6_published. Qed.
Print Assumptions C156_uf6_thirty_gaps_partial.

Theorem C156_uf6_refuted : ~ is_published UF6 (fun x => uf6 30 x 2 0.1).
Proof.
  intros H. destruct UF6_other as (x & f & A & E & N).
  exact (N (evaluates_unique _ _ _ _ E (H x A))).
Qed.
Print Assumptions C156_uf6_refuted.

(** UF8, UF9 and UF10 are published with the variables shared out between the objectives; the
    program gives each objective the variables of the other two. *)
Theorem C156_uf8_to_uf10_other_variables_partial :
  is_published UF8 (fun x => uf8 30 x (others 30)) /\
  is_published UF9 (fun x => uf9 30 x (others 30) 0.1) /\
  is_published UF10 (fun x => uf10 30 x (others 30)).
Proof.
  repeat split; intros x H; [now apply UF8_published|now apply UF9_published|now apply UF10_published].
Qed.
Print Assumptions C156_uf8_to_uf10_other_variables_partial.

Theorem C156_uf8_to_uf10_refuted :
  ~ is_published UF8 (fun x => uf8 30 x (multiples 30)) /\
  ~ is_published UF9 (fun x => uf9 30 x (multiples 30) 0.1) /\
  ~ is_published UF10 (fun x => uf10 30 x (multiples 30)).
Proof.
  split; [|split]; intros H.
  - destruct UF8_other as (x & f & A & E & N). exact (N (evaluates_unique _ _ _ _ E (H x A))).
  - destruct UF9_other as (x & f & A & E & N). exact (N (evaluates_unique _ _ _ _ E (H x A))).
  - destruct UF10_other as (x & f & A & E & N). exact (N (evaluates_unique _ _ _ _ E (H x A))).
Qed.
Print Assumptions C156_uf8_to_uf10_refuted.

(** An admissible vector of ZDT4 and its published value; the index sets. *)
Example C156_example :
  admissible ZDT4 (1 / 4 :: repeat 0 9) /\
  zdt4 10 (variable (1 / 4 :: repeat 0 9)) = [1 / 4; 1 / 2] /\
  evaluates ZDT4 (1 / 4 :: repeat 0 9) [1 / 4; 1 / 2] /\
  multiples 30 1 = [4; 7; 10; 13; 16; 19; 22; 25; 28]%nat /\
  others 30 1 = [3; 5; 6; 8; 9; 11; 12; 14; 15; 17; 18; 20; 21; 23; 24; 26; 27; 29; 30]%nat /\
  odds 10 = [3; 5; 7; 9]%nat /\ evens 10 = [2; 4; 6; 8; 10]%nat.
Proof.
  assert (A : admissible ZDT4 (1 / 4 :: repeat 0 9)).
  { constructor; [cbn; lra|]. cbn [repeat]. repeat (constructor; [cbn; lra|]). constructor. }
  assert (G : zdt4_g 10 (variable (1 / 4 :: repeat 0 9)) = 1).
  { unfold zdt4_g. rewrite (sum_variables _ 10 (fun v => v ^ 2 - 10 * cos (4 * PI * v))) by reflexivity.
    cbn [tl repeat sum_over fold_right]. rewrite !Rmult_0_r, cos_0, INR10. lra. }
  assert (E : zdt4 10 (variable (1 / 4 :: repeat 0 9)) = [1 / 4; 1 / 2]).
  { unfold zdt4, zdt. rewrite G. change (variable (1 / 4 :: repeat 0 9) 1) with (1 / 4).
    replace (1 / 4 / 1) with (1 / 2 * (1 / 2)) by lra. rewrite sqrt_square by lra.
    f_equal. f_equal. lra. }
  split; [exact A|]. split; [exact E|]. split; [rewrite <- E; now apply ZDT4_published|].
  repeat split; vm_compute; reflexivity.
Qed.
