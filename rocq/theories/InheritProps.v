(** C162: crossover and its parents. *)
From Coq Require Import Reals List Lra Lia.
From Verif Require Import OpModel OpSpec SimplexSpec SimplexProofs UnifSpec UnifProofs MoveProofs InheritSpec InheritProofs.
Import ListNotations.
Local Open Scope R_scope.

(** Exchanging the parents (and which of the two children is returned, which a fair coin decides) changes the chance of
    no event about the child.  No assumptions about parents, box, rate or draw [r0]. *)
Theorem C162_parents_are_treated_alike :
  forall (eps eta rate r0 : R) (dims : list (R * R)) (xs ys : list R) (pick : bool) (event : option (list R) -> Prop) (p : R),
    let child xs ys pick us :=
      rcrossover eps xs ys dims rate eta r0 pick (in_threes us 0) (in_threes us 1) (in_threes us 2) in
    chance (3 * length dims) (fun us => event (child xs ys pick us)) p ->
    chance (3 * length dims) (fun us => event (child ys xs (negb pick) us)) p.
Proof.
  intros eps eta rate r0 dims xs ys pick event p child (f & Hf & M).
  exists (fun us => f (flip3 (length dims) us)). split.
  - intros us. replace (child ys xs (negb pick) us) with (child xs ys pick (flip3 (length dims) us)); [apply Hf|].
    unfold child. rewrite crossover_exchange. apply crossover_draws. intros k Hk. now apply flip3_draw.
  - rewrite <- triple_3 in *. now apply mean_flip3.
Qed.
Print Assumptions C162_parents_are_treated_alike.

(** When crossover takes place and the parents differ in every gene, the child takes after the chosen parent in each
    gene with chance 3/4, independently. *)
Theorem C162_inheritance :
  forall (eps eta rate r0 : R) (dims : list (R * R)) (xs ys : list R) (pick : bool) (pattern : list bool),
    0 < eps -> 0 <= eta -> r0 <= rate -> in_rbox dims xs -> in_rbox dims ys ->
    Forall2 (fun x y => eps < Rabs (x - y)) xs ys -> length pattern = length xs ->
    chance (3 * length dims)
      (fun us => exists c,
         rcrossover eps xs ys dims rate eta r0 pick (in_threes us 0) (in_threes us 1) (in_threes us 2) = Some c /\
         takes_after pattern (if pick then xs else ys) (if pick then ys else xs) c)
      (chance_of_pattern pattern).
Proof.
  intros eps eta rate r0 dims xs ys pick pattern He Ht Hr B1 B2 D Lp.
  assert (L1 : length xs = length dims) by (unfold in_rbox in B1; clear -B1; induction B1; cbn; congruence).
  assert (L2 : length ys = length dims) by (unfold in_rbox in B2; clear -B2; induction B2; cbn; congruence).
  set (ps := if pick then xs else ys). set (os := if pick then ys else xs).
  assert (Lps : length ps = length dims) by (unfold ps; destruct pick; assumption).
  assert (Los : length os = length dims) by (unfold os; destruct pick; assumption).
  exists (fun us => match rcrossover eps xs ys dims rate eta r0 pick (in_threes us 0) (in_threes us 1) (in_threes us 2) with
                    | Some c => if takes_after_dec pattern ps os c then 1 else 0 | None => 0 end). split.
  - intros us. destruct (rcrossover _ _ _ _ _ _ _ _ _ _ _) as [c|].
    + destruct (takes_after_dec pattern ps os c) as [H|H]; split; try reflexivity.
      * intros N. exfalso. apply N. exists c. auto.
      * intros (zs & E & F). injection E as <-. contradiction.
    + split; [|reflexivity]. intros (zs & E & _). discriminate.
  - apply mean_ext with (f := factors3 (map (nhit eps eta pick) (combine (combine dims (combine ps os)) pattern))).
    + intros us _ F. rewrite (rcrossover_gouts eps eta He Ht pick dims xs ys us rate r0 B1 B2 D Hr F).
      replace (if pick then combine xs ys else combine ys xs) with (combine ps os) by (unfold ps, os; now destruct pick).
      apply factors3_nhit; lia.
    + assert (Bp : in_rbox dims ps) by (unfold ps; destruct pick; assumption).
      assert (Bo : in_rbox dims os) by (unfold os; destruct pick; assumption).
      assert (Dpo : Forall2 (fun p o => eps < Rabs (p - o)) ps os).
      { unfold ps, os. destruct pick; [exact D|]. clear -D. induction D; constructor; [now rewrite Rabs_minus_sym | assumption]. }
      assert (Lp' : length pattern = length dims) by lia.
      clearbody ps os. clear -He Ht Bp Bo Dpo Lp' Lps Los.
      replace (3 * length dims)%nat with (triple (length (map (nhit eps eta pick) (combine (combine dims (combine ps os)) pattern))))
        by (rewrite triple_3, map_length, !combine_length; lia).
      replace (chance_of_pattern pattern) with (product (map (fun t : bool => if t then 3 / 4 else 1 / 4) pattern))
        by (unfold chance_of_pattern, product; clear; induction pattern as [|t l IH]; cbn [map fold_right]; [reflexivity | now rewrite IH]).
      apply mean_factors3. clear Lps Los. revert os pattern Bo Dpo Lp'.
      induction Bp as [|[lb ub] x dims ps Hx Bp IH]; intros os [|t pattern] Bo Dpo Lp'; try discriminate; cbn [combine map].
      * constructor.
      * inversion Bo as [|? o ? os' Ho Bo']; subst. inversion Dpo; subst. cbn [combine map]. constructor.
        -- cbn [fst snd] in *. now apply nhit_mean.
        -- apply IH; auto.
Qed.
Print Assumptions C162_inheritance.

(** Two genes, the second child chosen: the first gene takes after the second parent and the second gene after the
    first parent with chance 3/16. *)
Example C162_example :
  chance 6 (fun us => exists c,
      rcrossover (1/1000) [1; 3] [2; 0] [(0, 4); (0, 3)] 1 20 (1/2) false (in_threes us 0) (in_threes us 1) (in_threes us 2) = Some c /\
      takes_after [true; false] [2; 0] [1; 3] c) (3/16).
Proof.
  replace (3/16) with (chance_of_pattern [true; false]) by (cbn; lra).
  apply (C162_inheritance (1/1000) 20 1 (1/2) [(0, 4); (0, 3)] [1; 3] [2; 0] false [true; false]); try lra; try reflexivity.
  - repeat (apply Forall2_cons || apply Forall2_nil); cbn [fst snd]; lra.
  - repeat (apply Forall2_cons || apply Forall2_nil); cbn [fst snd]; lra.
  - repeat (apply Forall2_cons || apply Forall2_nil); unfold Rabs; destruct (Rcase_abs _); lra.
Qed.
