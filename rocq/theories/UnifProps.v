(** C159: initial populations are independent and uniform. *)
From Coq Require Import Reals List Lra Lia.
From Verif Require Import OpModel RndModel SimplexSpec SimplexProofs UnifSpec UnifProofs.
Import ListNotations.
Local Open Scope R_scope.

(** gen_population in exact arithmetic, for every number of vectors and every box. *)
Theorem C159_uniform :
  forall (count : nat) (dims : rbox), Forall (fun d => fst d < snd d) dims ->
    uniform_in_box count dims (fun us => fpopulation (fun x => x) count dims (row_by_row (length dims) us)).
Proof.
  intros count dims V ts <- F.
  assert (L : Forall (fun t => length t = length dims) ts).
  { eapply Forall_impl; [|exact F]. intros t Ft. clear -Ft. induction Ft; cbn; congruence. }
  exists (factors (map gene (triples dims ts))). split.
  - intros us. rewrite (population_above dims ts us L). apply factors_indicator.
  - rewrite <- (triples_length dims ts L), <- product_triples, <- (map_length gene). apply mean_factors. now apply triples_integrals.
Qed.
Print Assumptions C159_uniform.

(** Two vectors in [0, 1] x [-2, 2]: the first has its second coordinate above 1 and the second its first coordinate
    above 1/2 with chance 1/8. *)
Example C159_example :
  chance 4 (fun us => Forall2 (Forall2 Rlt) [[0; 1]; [1/2; -2]]
                        (fpopulation (fun x => x) 2 [(0, 1); (-2, 2)] (row_by_row 2 us))) (1/8).
Proof.
  assert (V : Forall (fun d : R * R => fst d < snd d) [(0, 1); (-2, 2)]) by (repeat constructor; cbn; lra).
  pose proof (C159_uniform 2 _ V [[0; 1]; [1/2; -2]] eq_refl) as H.
  replace (1/8) with (product (map (share [(0, 1); (-2, 2)]) [[0; 1]; [1/2; -2]]))
    by (unfold share, product; cbn; field).
  apply H. repeat constructor; cbn; lra.
Qed.
