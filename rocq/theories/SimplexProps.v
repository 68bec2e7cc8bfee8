(** C158: the reference points of NSGA-III are uniformly distributed. *)
From Coq Require Import Reals List Lra Lia Permutation.
From Coquelicot Require Import Coquelicot.
From Verif Require Import Nsga3Model SimplexSpec SimplexProofs.
Import ListNotations.
Local Open Scope R_scope.

(** For every number of objectives a reference point, made from independent uniform draws, is uniformly distributed on
    the unit simplex. *)
Theorem C158_uniform :
  forall m : nat, (1 <= m)%nat -> uniform_on_simplex m (fun us => generate_reference_point m (in_order m us)).
Proof.
  intros m Hm t L N. destruct m as [|k]; [lia|]. replace (S k - 1)%nat with k by lia.
  pose proof (loop_chance k 0 t ltac:(lra) L N) as M. unfold tail_chance in M. rewrite Rminus_0_r in M.
  split; intros H; destruct (Rlt_dec (total t) 1) as [H'|H']; try lra;
    (exists (fun us => above t (generate_reference_point (S k) (in_order (S k) us))); split; [intros us; apply above_spec|]).
  - unfold Rdiv in M. rewrite Rinv_1, Rmult_1_r in M. exact M.
  - exact M.
Qed.
Print Assumptions C158_uniform.

(** Chances are unique, so that the theorem leaves no other value. *)
Theorem C158_chances_are_unique :
  forall n E p p', chance n E p -> chance n E p' -> p = p'.
Proof.
  intros n E p p' (f & F & M) (f' & F' & M'). apply (mean_unique n f' p p'); [|exact M'].
  eapply mean_ext; [|exact M]. intros us _. destruct (F us) as [A B], (F' us) as [A' B'].
  destruct (Req_dec (f us) 0) as [Z|Z].
  - destruct (Req_dec (f' us) 0) as [Z'|Z']; [congruence|]. exfalso. apply Z'. apply B'. intro e. rewrite (A e) in Z. lra.
  - destruct (Req_dec (f' us) 0) as [Z'|Z'].
    + exfalso. apply Z. apply B. intro e. rewrite (A' e) in Z'. lra.
    + assert (N1 : ~ ~ E us) by tauto. destruct (Req_dec (f us) 1) as [O|O]; [destruct (Req_dec (f' us) 1) as [O'|O']; [congruence|]|];
        exfalso; apply N1; intro e; [apply O' | apply O]; auto.
Qed.
Print Assumptions C158_chances_are_unique.

(** No direction is favoured: exchanging the objectives does not change a chance. *)
Theorem C158_no_objective_is_favoured :
  forall (m : nat) (t t' : list R) (p : R), (1 <= m)%nat -> length t = m -> List.Forall (fun x => 0 <= x) t -> Permutation t t' ->
    chance (m - 1) (fun us => Forall2 Rlt t (generate_reference_point m (in_order m us))) p ->
    chance (m - 1) (fun us => Forall2 Rlt t' (generate_reference_point m (in_order m us))) p.
Proof.
  intros m t t' p Hm L N P C.
  assert (L' : length t' = m) by (rewrite <- (Permutation_length P); exact L).
  assert (N' : List.Forall (fun x => 0 <= x) t') by (exact (Permutation_Forall P N)).
  assert (T : total t = total t') by (clear -P; unfold total; induction P; cbn [fold_right]; lra).
  destruct (C158_uniform m Hm t L N) as [A B]. destruct (C158_uniform m Hm t' L' N') as [A' B'].
  destruct (Rlt_le_dec (total t) 1) as [H|H].
  - rewrite (C158_chances_are_unique _ _ _ _ C (A H)). rewrite T. apply A'. lra.
  - rewrite (C158_chances_are_unique _ _ _ _ C (B H)). apply B'. lra.
Qed.
Print Assumptions C158_no_objective_is_favoured.

(** Three objectives: the second coordinate exceeds 1/2 with chance 1/4. *)
Example C158_example :
  chance 2 (fun us => Forall2 Rlt [0; 1/2; 0] (generate_reference_point 3 (in_order 3 us))) (1/4).
Proof.
  assert (N : List.Forall (fun x => 0 <= x) [0; 1/2; 0]) by (repeat constructor; lra).
  destruct (C158_uniform 3 ltac:(lia) [0; 1/2; 0] eq_refl N) as [A _].
  assert (T : total [0; 1/2; 0] = 1/2) by (unfold total; cbn [fold_right]; lra). rewrite T in A.
  specialize (A ltac:(lra)). replace ((1 - 1 / 2) ^ (3 - 1)) with (1/4) in A by (cbn [Nat.sub pow]; lra). exact A.
Qed.
