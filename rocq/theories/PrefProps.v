(** Property theorems C152: do the rankings prefer the better result? *)
From Coq Require Import Reals QArith Qreals String Lra.
From Verif Require Import Spec DomModel DomProofs MetModel MetSpec MetProofs HvModel PrefModel PrefSpec PrefProofs.
From Coq Require Import List Lia.
Local Open Scope Z_scope.

(** Ranked by hypervolume, with one to three objectives: a result that covers the winner has the same
    score, and if all values are below the reference point nobody outperforms the winner. *)
Theorem C152_hypervolume_partial :
  forall (neg unit : Z) (eps : R) (d : nat) (p0 : vec) (ps : list vec) (results : list (string * list vec)) (w : string) (v : R),
    (1 <= d <= 3)%nat -> length p0 = d ->
    (forall a A p, In (a, A) results -> In p A -> length p = d) ->
    (d = 3%nat -> forall a A p x, In (a, A) results -> In p A -> In x p -> neg <= x - 50 * unit) ->
    winner neg unit eps (p0 :: ps) Hypervolume results = Some (w, v) ->
    exists B, In (w, B) results /\
      (forall a A, In (a, A) results -> covers A B ->
         score neg unit eps (p0 :: ps) (map snd results) Hypervolume A = Some v) /\
      ((forall a A p x, In (a, A) results -> In p A -> In x p -> x < 50 * unit) ->
       forall a A, In (a, A) results -> ~ outperforms A B).
Proof.
  intros neg unit eps d p0 ps results w v Hd Hp Hl Hn Hw.
  destruct (winner_spec _ _ _ _ _ _ _ _ Hw) as ((B & HB & EB) & Hbest).
  assert (Hpar : exists q qs, p0 :: ps = q :: qs /\ length q = d) by (exists p0, ps; auto).
  exists B. split; [exact HB|].
  assert (K : forall a A, In (a, A) results -> exists ha hb,
            m_hypervolume neg unit A (filter_not_dominated (fun v => v) A) (p0 :: ps) = Some ha /\
            m_hypervolume neg unit B (filter_not_dominated (fun v => v) B) (p0 :: ps) = Some hb /\
            score neg unit eps (p0 :: ps) (map snd results) Hypervolume A = Some (IZR ha) /\ v = IZR hb /\ ha <= hb /\
            (covers A B -> hb <= ha) /\
            (outperforms A B -> (forall p x, In p A -> In x p -> x < 50 * unit) -> hb < ha)).
  { intros a A HA. destruct (Hbest a A HA) as (u & Eu & Hu). pose proof EB as EB'. pose proof Eu as Eu'.
    cbn [score] in Eu, EB. unfold option_map in Eu, EB.
    destruct (m_hypervolume neg unit A _ (p0 :: ps)) as [ha|] eqn:Ea; [|discriminate].
    destruct (m_hypervolume neg unit B _ (p0 :: ps)) as [hb|] eqn:Eb; [|discriminate].
    injection Eu as <-. injection EB as <-. exists ha, hb.
    assert (DA : all_dim d (fun v : vec => v) A) by (intros p Hp'; apply (Hl a A p HA Hp')).
    assert (DB : all_dim d (fun v : vec => v) B) by (intros p Hp'; apply (Hl w B p HB Hp')).
    destruct (hv_outperforms neg unit d (p0 :: ps) A B ha hb Hd Hpar DA DB) as [O1 O2]; auto.
    { intros E p x [Hp'|Hp'] Hx; [apply (Hn E a A p x) | apply (Hn E w B p x)]; assumption. }
    cbn in Hu. apply le_IZR in Hu. repeat split; auto. }
  split.
  - intros a A HA Hc. destruct (K a A HA) as (ha & hb & _ & _ & Es & -> & H1 & H2 & _). rewrite Es.
    do 2 f_equal. specialize (H2 Hc). lia.
  - intros Hlt a A HA Ho. destruct (K a A HA) as (ha & hb & _ & _ & _ & _ & H1 & _ & H3).
    assert (hb < ha); [|lia]. apply (H3 Ho). intros p x Hp' Hx. apply (Hlt a A p x); assumption.
Qed.
Print Assumptions C152_hypervolume_partial.

(** Ranked by the dominance indicator: a result that covers the winner has the same score if the winner
    holds no vector twice. *)
Theorem C152_dominance_indicator_partial :
  forall (neg unit : Z) (eps : R) (pareto : list vec) (d : nat) (results : list (string * list vec)) (w : string) (v : R),
    (forall a A p, In (a, A) results -> In p A -> length p = d) ->
    (forall A, In (w, A) results -> NoDup A) ->
    winner neg unit eps pareto Pdi results = Some (w, v) ->
    exists B, In (w, B) results /\
      forall a A, In (a, A) results -> covers A B -> score neg unit eps pareto (map snd results) Pdi A = Some v.
Proof.
  intros neg unit eps pareto d results w v Hl Hnd Hw.
  destruct (winner_spec _ _ _ _ _ _ _ _ Hw) as ((B & HB & EB) & Hbest). exists B. split; [exact HB|].
  intros a A HA Hc. destruct (Hbest a A HA) as (u & Eu & Hu). rewrite Eu. f_equal. cbn [as_good] in Hu.
  apply Rle_antisym; [exact Hu|]. cbn [score] in Eu, EB. unfold option_map in Eu, EB.
  destruct (pareto_dominance_indicator A _ _) as [qa|] eqn:Ea; [|discriminate].
  destruct (pareto_dominance_indicator B _ _) as [qb|] eqn:Eb; [|discriminate].
  injection Eu as <-. injection EB as <-. apply Qle_Rle.
  apply (pdi_covers d (map snd results) A B qa qb); [| | | | exact Hc | exact Ea | exact Eb].
  - intros p Hp. apply in_concat in Hp. destruct Hp as (l & Hl' & Hp). apply in_map_iff in Hl'.
    destruct Hl' as ([c C] & <- & HC). apply (Hl c C p HC Hp).
  - apply in_map_iff. exists (a, A). auto.
  - apply in_map_iff. exists (w, B). auto.
  - apply Hnd, HB.
Qed.
Print Assumptions C152_dominance_indicator_partial.

(** What remains true of the distances: further points never make the inverse generational distance
    worse, and a result whose non-dominated members all lie on the published front has the best
    generational distance there is. *)
Theorem C152_distances_partial :
  forall (neg unit : Z) (eps : R) (pareto : list vec) (sols : list (list vec)) (A B : list vec) (d : nat) (a b : R),
    pareto <> [] -> A <> [] -> B <> [] ->
    (forall p, In p pareto \/ In p A \/ In p B -> length p = d) ->
    (score neg unit eps pareto sols Igd A = Some a -> score neg unit eps pareto sols Igd B = Some b ->
     incl B A -> as_good Igd a b) /\
    (score neg unit eps pareto sols Gd A = Some a -> score neg unit eps pareto sols Gd B = Some b ->
     (forall s, In s A -> nondominated_in (fun v => v) A s -> In s pareto) -> as_good Gd a b).
Proof.
  intros neg unit eps pareto sols A B d a b HP HA HB Hl.
  assert (DA : all_dim d (fun v : vec => v) A) by (intros p Hp; apply Hl; auto). split.
  - intros Ea Eb Hi. apply (igd_superset A B pareto a b HB HP Hi); auto.
    intros p s Hp Hs. rewrite !Hl; auto.
  - intros Ea Eb Hin. pose proof (filter_not_dominated_members _ (fun v : vec => v) d A DA) as [Hm _].
    apply (gd_zero_wins (filter_not_dominated (fun v => v) A) (filter_not_dominated (fun v => v) B) pareto a b HP); auto.
    + destruct (nd_nonempty d A DA HA) as (x & Hx & Hn). intros E.
      assert (In x (filter_not_dominated (fun v => v) A)) by (apply Hm; auto). rewrite E in H. contradiction.
    + intros s p Hs Hp. apply Hm in Hs. rewrite !Hl; tauto.
    + intros s Hs. apply Hm in Hs. apply Hin; tauto.
Qed.
Print Assumptions C152_distances_partial.

Lemma best_two (larger : bool) (a b : string) (x y : R) : (if larger then (x < y)%R else (y < x)%R) ->
  best larger [(a, x); (b, y)] = Some (b, y).
Proof.
  intros H. unfold best. cbn [fold_left snd]. destruct larger; cbn [snd]; destruct (Rlt_dec _ _); try reflexivity; contradiction.
Qed.

Lemma sqrt_half (a b x y : R) : (a / x < b / y)%R -> (0 <= a / x)%R -> (sqrt (a / x) < sqrt (b / y))%R.
Proof. intros H1 H2. apply sqrt_lt_1; lra. Qed.

(** No ranked metric is safe: for each of the six there are results A and B and a front of mutually
    non-dominated points, no point of which is dominated by A or B, such that A outperforms B and B wins.
    (Hypervolume: five objectives, as in UF11 and UF12.) *)
Theorem C152_winner_refuted :
  forall m : metric, exists (neg unit : Z) (eps : R) (pareto A B : list vec) (d : nat) (v : R),
    (0 < eps)%R /\ pareto <> [] /\
    (forall p, In p pareto \/ In p A \/ In p B -> length p = d) /\
    (forall p q, In p pareto -> In q pareto -> ~ pareto_dom p q) /\
    (forall p q, In p A \/ In p B -> In q pareto -> ~ pareto_dom p q) /\
    (forall p x, In p A \/ In p B -> In x p -> neg <= x - 50 * unit < 0) /\
    outperforms A B /\
    winner neg unit eps pareto m [("a"%string, A); ("b"%string, B)] = Some ("b"%string, v).
Proof.
  assert (out : forall A B, forallb (fun b => existsb (fun a => wle a b) A) B = true ->
                  (forall p, In p A \/ In p B -> exists q, q = length p /\ forall r, In r A \/ In r B -> length r = q) ->
                  existsb (fun a => forallb (fun b => negb (wle b a)) B) A = true -> outperforms A B).
  { intros A B H1 Hl H2. split.
    - intros b Hb. rewrite forallb_forall in H1. specialize (H1 b Hb). apply existsb_exists in H1.
      destruct H1 as (a & Ha & E). exists a. split; [exact Ha|]. apply wle_spec in E; [exact E|].
      destruct (Hl a (or_introl Ha)) as (q & -> & K). symmetry. apply K. right. exact Hb.
    - intros C. apply existsb_exists in H2. destruct H2 as (a & Ha & E). rewrite forallb_forall in E.
      destruct (C a Ha) as (b & Hb & Hle). specialize (E b Hb). apply negb_true_iff in E.
      rewrite (proj2 (wle_spec b a (no_worse_length _ _ Hle)) Hle) in E. discriminate. }
  Ltac members := intros; repeat match goal with
                    | H : _ \/ _ |- _ => destruct H; subst
                    | H : False |- _ => destruct H
                    | H : In _ (_ :: _) |- _ => destruct H; subst
                    | H : In _ [] |- _ => destruct H end.
  Ltac shapes out :=
    split; [lra|]; split; [discriminate|]; split; [members; reflexivity|];
    split; [members; apply dominates_false_spec; reflexivity|];
    split; [members; apply dominates_false_spec; reflexivity|];
    split; [members; lia|];
    split; [apply out; [reflexivity | members; eexists; (split; [reflexivity | members; reflexivity]) | reflexivity]|].
  intros [| | | | |].
  - exists (-1000), 1, 1%R, [[0; 0; 0; 0; 0]], [[1; 1; 2; 1; 0]; [2; 1; 1; 1; 0]; [2; 1; 1; 0; 1]; [2; 0; 2; 0; 2]],
      [[2; 1; 1; 1; 0]; [2; 1; 1; 0; 1]; [2; 0; 2; 0; 2]], 5%nat. eexists. shapes out.
    unfold winner, scoring. cbn [comprehension score option_map larger_wins].
    match goal with |- context [m_hypervolume ?a ?b ?c ?d ?e] => 
      let r := eval vm_compute in (m_hypervolume a b c d e) in
      replace (m_hypervolume a b c d e) with r by (vm_compute; reflexivity) end.
    match goal with |- context [m_hypervolume ?a ?b ?c ?d ?e] => 
      let r := eval vm_compute in (m_hypervolume a b c d e) in
      replace (m_hypervolume a b c d e) with r by (vm_compute; reflexivity) end.
    apply best_two. apply IZR_lt. lia.
  - exists (-1000), 1, 1%R, [[0; 10]; [1; 9]], [[30; 0]], [[30; 10]], 2%nat. eexists. shapes out.
    apply best_two. cbn -[sqrt]. apply sqrt_half; lra.
  - exists (-1000), 1, 1%R, [[0; 10]; [1; 9]], [[30; 0]], [[30; 10]], 2%nat. eexists. shapes out.
    unfold winner, scoring. cbn [comprehension score larger_wins].
    set (x := average_hausdorff_distance [[30; 0]] _ _). set (y := average_hausdorff_distance [[30; 10]] _ _).
    assert (Ex : x = Some (sqrt (1922 / (1 + 1)))).
    { unfold x, average_hausdorff_distance. cbn -[sqrt]. destruct (Rlt_dec _ _) as [H|H]; [do 2 f_equal; lra|].
      exfalso. apply H. apply sqrt_half; lra. }
    assert (Ey : y = Some (sqrt (1742 / (1 + 1)))).
    { unfold y, average_hausdorff_distance. cbn -[sqrt]. destruct (Rlt_dec _ _) as [H|H]; [do 2 f_equal; lra|].
      exfalso. apply H. apply sqrt_half; lra. }
    rewrite Ex, Ey. apply best_two. apply sqrt_half; lra.
  - exists (-1000), 1, 1%R, [[0; 0]], [[0; 10]; [1; 5]; [10; 0]], [[0; 11]; [5; 6]; [10; 1]], 2%nat. eexists. shapes out.
    apply best_two. cbn -[sqrt]. apply sqrt_half; lra.
  - exists (-1000), 1, 1%R, [[0; 10]; [1; 9]], [[30; 0]], [[30; 10]], 2%nat. eexists. shapes out.
    apply best_two. cbn -[sqrt]. apply sqrt_half; lra.
  - exists (-1000), 1, 1%R, [[0; 0]], [[1; 2]; [3; 1]], [[1; 2]; [1; 2]; [1; 2]], 2%nat. eexists. shapes out.
    apply best_two. cbn. unfold Q2R. cbn. lra.
Qed.
Print Assumptions C152_winner_refuted.

(** Two results of two objectives that meet the hypotheses of the theorems above: the first covers the
    second and wins. *)
Example C152_example :
  covers [[1; 4]; [3; 2]] [[2; 5]; [3; 3]] /\
  winner (-1000) 1 1 [[0; 5]; [2; 1]] Hypervolume [("b"%string, [[2; 5]; [3; 3]]); ("a"%string, [[1; 4]; [3; 2]])] =
    Some ("a"%string, 2348%R) /\
  winner (-1000) 1 1 [[0; 5]; [2; 1]] Pdi [("b"%string, [[2; 5]; [3; 3]]); ("a"%string, [[1; 4]; [3; 2]])] =
    Some ("a"%string, Q2R (2 # 2)).
Proof.
  split; [|split].
  - intros b [<-|[<-|[]]]; [exists [1; 4] | exists [3; 2]]; (split; [cbn; auto | repeat constructor; lia]).
  - unfold winner, scoring. cbn [comprehension score option_map larger_wins].
    repeat match goal with |- context [m_hypervolume ?a ?b ?c ?d ?e] =>
      let r := eval vm_compute in (m_hypervolume a b c d e) in
      replace (m_hypervolume a b c d e) with r by (vm_compute; reflexivity) end.
    apply best_two. apply IZR_lt. lia.
  - apply best_two. cbn. unfold Q2R. cbn. lra.
Qed.
