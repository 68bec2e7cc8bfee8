From Verif Require Import Spec VarSpec Base VarModel.
From Coq Require Import QArith Lqa.
Local Open Scope Z_scope.

Lemma set_nth_length {A} i (v : A) l : length (set_nth i v l) = length l.
Proof.
  revert i. induction l as [|a l IH]; intros i; [reflexivity|].
  destruct i; simpl; auto.
Qed.

Lemma nth_error_set_nth {A} i (v : A) l j :
  nth_error (set_nth i v l) j =
  if (i =? j)%nat then match nth_error l j with Some _ => Some v | None => None end
  else nth_error l j.
Proof.
  revert i j. induction l as [|a l IH]; intros i j.
  - simpl. destruct j; simpl; now destruct (i =? _)%nat.
  - destruct i as [|i], j as [|j]; simpl; auto.
Qed.

Lemma Forall2_of_nth {A B} (R : A -> B -> Prop) l l' :
  length l = length l' ->
  (forall i x y, nth_error l i = Some x -> nth_error l' i = Some y -> R x y) ->
  Forall2 R l l'.
Proof.
  revert l'. induction l as [|a l IH]; intros [|b l'] HL HN; try discriminate; constructor.
  - apply (HN 0%nat); reflexivity.
  - apply IH; [simpl in HL; lia|]. intros i x y Hx Hy. apply (HN (S i)); auto.
Qed.

Lemma in_box_nth b v i lb ub x :
  in_box b v -> nth_error b i = Some (lb, ub) -> nth_error v i = Some x -> lb <= x <= ub.
Proof.
  intros H. revert i. induction H as [|p y b v Hp H IH]; intros i Hb Hx; [destruct i; discriminate|].
  destruct i as [|i]; simpl in *.
  - injection Hb as ->. injection Hx as ->. exact Hp.
  - eauto.
Qed.

Lemma in_box_length b v : in_box b v -> length v = length b.
Proof. intros H. symmetry. eapply Forall2_length'; eauto. Qed.

Lemma valid_box_nth b i lb ub : valid_box b -> nth_error b i = Some (lb, ub) -> lb <= ub.
Proof.
  intros H Hn. apply nth_error_In in Hn. unfold valid_box in H. rewrite Forall_forall in H.
  exact (H _ Hn).
Qed.

Lemma clamp_in lb ub y : lb <= ub -> lb <= clamp lb ub y <= ub.
Proof. unfold clamp. lia. Qed.
Lemma clamp_id lb ub y : lb <= y <= ub -> clamp lb ub y = y.
Proof. unfold clamp. lia. Qed.

(** ---- mutate ---- *)
Section MutateProofs.
  Variable raw : Z -> Z -> Z -> Z -> Z.
  Variables sel rnd : nat -> Z.
  Variable rate : Z.

  Lemma mutate_loop_spec xs dims : forall i nx,
    length xs = (i + length dims)%nat -> length nx = length xs ->
    exists ys, mutate_loop raw sel rnd rate xs i dims nx = Some ys /\
      length ys = length xs /\
      (forall j, (j < i)%nat -> nth_error ys j = nth_error nx j) /\
      (forall j lb ub x n, (i <= j)%nat -> nth_error dims (j - i) = Some (lb, ub) ->
         nth_error xs j = Some x -> nth_error nx j = Some n ->
         nth_error ys j = Some (if rate <? sel j then n else clamp lb ub (raw lb ub x (rnd j)))).
  Proof.
    induction dims as [|[lb ub] dims IH]; intros i nx HL HN; simpl in HL.
    - exists nx. simpl. repeat split; auto. intros j lb ub x n Hj Hd. now destruct (j - i)%nat.
    - cbn [mutate_loop]. destruct (rate <? sel i) eqn:E.
      + destruct (IH (S i) nx) as (ys & Hy & Hl & H1 & H2); [lia|auto|].
        exists ys. repeat split; auto.
        intros j lb' ub' x n Hj Hd Hx Hn. destruct (Nat.eq_dec j i) as [->|Hne].
        * rewrite E. rewrite H1 by lia. exact Hn.
        * apply (H2 j lb' ub' x n); auto; [lia|].
          replace (j - i)%nat with (S (j - S i)) in Hd by lia. exact Hd.
      + destruct (nth_error xs i) as [y|] eqn:Ey.
        2:{ apply nth_error_None in Ey. lia. }
        destruct (IH (S i) (set_nth i (clamp lb ub (raw lb ub y (rnd i))) nx))
          as (ys & Hy & Hl & H1 & H2); [lia|rewrite set_nth_length; auto|].
        exists ys. repeat split; auto.
        * intros j Hj. rewrite H1 by lia. rewrite nth_error_set_nth.
          destruct (Nat.eqb_spec i j); [lia|auto].
        * intros j lb' ub' x n Hj Hd Hx Hn. destruct (Nat.eq_dec j i) as [->|Hne].
          -- rewrite H1 by lia. rewrite nth_error_set_nth, Nat.eqb_refl, Hn, E.
             rewrite Nat.sub_diag in Hd. injection Hd as -> ->. rewrite Ey in Hx.
             injection Hx as ->. reflexivity.
          -- replace (j - i)%nat with (S (j - S i)) in Hd by lia.
             apply (H2 j lb' ub' x n); auto; [lia|].
             rewrite nth_error_set_nth. destruct (Nat.eqb_spec i j); [lia|auto].
  Qed.

  Lemma mutate_spec xs dims :
    length xs = length dims ->
    exists ys, mutate raw sel rnd rate xs dims = Some ys /\ length ys = length xs /\
      forall j lb ub x, nth_error dims j = Some (lb, ub) -> nth_error xs j = Some x ->
        nth_error ys j = Some (if rate <? sel j then x else clamp lb ub (raw lb ub x (rnd j))).
  Proof.
    intros HL. destruct (mutate_loop_spec xs dims 0 xs) as (ys & Hy & Hl & _ & H); auto.
    exists ys. repeat split; auto. intros j lb ub x Hd Hx.
    apply (H j lb ub x x); auto; [lia|]. now rewrite Nat.sub_0_r.
  Qed.

  Lemma mutate_genes xs dims :
    length xs = length dims ->
    exists ys, mutate raw sel rnd rate xs dims = Some ys /\ length ys = length xs /\
      forall j lb ub x, nth_error dims j = Some (lb, ub) -> nth_error xs j = Some x ->
        exists y, nth_error ys j = Some y /\
          (rate < sel j -> y = x) /\
          (sel j <= rate -> lb <= ub ->
             lb <= y <= ub /\
             (lb <= raw lb ub x (rnd j) <= ub -> y = raw lb ub x (rnd j))).
  Proof.
    intros HL. destruct (mutate_spec xs dims HL) as (ys & Hy & Hl & H).
    exists ys. repeat split; auto. intros j lb ub x Hd Hx.
    specialize (H j lb ub x Hd Hx). eexists. split; [exact H|].
    destruct (Z.ltb_spec rate (sel j)); split; intros; try lia; auto.
    split; [now apply clamp_in|]. apply clamp_id.
  Qed.

  Lemma mutate_in_box xs dims :
    valid_box dims -> in_box dims xs ->
    exists ys, mutate raw sel rnd rate xs dims = Some ys /\ in_box dims ys.
  Proof.
    intros Hv Hb. pose proof (in_box_length _ _ Hb) as HL.
    destruct (mutate_spec xs dims HL) as (ys & Hy & Hl & H).
    exists ys. split; auto. apply Forall2_of_nth; [congruence|].
    intros i [lb ub] y Hd Hyi. cbn [fst snd].
    destruct (nth_error xs i) as [x|] eqn:Ex.
    2:{ apply nth_error_None in Ex. apply nth_error_Some' in Hyi. lia. }
    rewrite (H i lb ub x Hd Ex) in Hyi. injection Hyi as <-.
    destruct (rate <? sel i); [eapply in_box_nth; eauto|].
    apply clamp_in. eapply valid_box_nth; eauto.
  Qed.
End MutateProofs.

(** ---- sbx loop ---- *)
Section SBXProofs.
  Variables raw_a raw_b : Z -> Z -> Z -> Z -> Z -> Z.
  Variables skip rand swap : nat -> Z.
  Variables half epsilon : Z.
  Local Notation loop := (sbx_loop raw_a raw_b skip rand swap half epsilon).

  (** The two genes produced at position j. *)
  Definition sbx_gene (j : nat) (lb ub x y : Z) : Z * Z :=
    if half <? skip j then (x, y)
    else if Z.abs (x - y) <=? epsilon then (x, y)
    else
      let a := clamp lb ub (raw_a lb ub (Z.min x y) (Z.max x y) (rand j)) in
      let b := clamp lb ub (raw_b lb ub (Z.min x y) (Z.max x y) (rand j)) in
      if half <? swap j then (b, a) else (a, b).

  Lemma sbx_loop_spec xs ys dims : forall i nx ny,
    length xs = (i + length dims)%nat -> length ys = length xs ->
    length nx = length xs -> length ny = length xs ->
    exists rx ry, loop xs ys i dims nx ny = Some (rx, ry) /\
      length rx = length xs /\ length ry = length xs /\
      (forall j, (j < i)%nat -> nth_error rx j = nth_error nx j /\ nth_error ry j = nth_error ny j) /\
      (forall j lb ub x y, (i <= j)%nat -> nth_error dims (j - i) = Some (lb, ub) ->
         nth_error xs j = Some x -> nth_error ys j = Some y ->
         nth_error nx j = Some x -> nth_error ny j = Some y ->
         nth_error rx j = Some (fst (sbx_gene j lb ub x y)) /\
         nth_error ry j = Some (snd (sbx_gene j lb ub x y))).
  Proof.
    induction dims as [|[lb ub] dims IH]; intros i nx ny HL HLy HN HNy; simpl in HL.
    - exists nx, ny. simpl. repeat split; auto;
      intros; now destruct (j - i)%nat.
    - cbn [sbx_loop].
      assert (Hkeep : forall k b1 b2, (half <? skip k = true \/
                (half <? skip k = false /\ Z.abs (b1 - b2) <=? epsilon = true)) ->
                sbx_gene k lb ub b1 b2 = (b1, b2)).
      { intros k b1 b2 [E|[E1 E2]]; unfold sbx_gene; [now rewrite E|now rewrite E1, E2]. }
      destruct (nth_error xs i) as [x0|] eqn:Ex; [|apply nth_error_None in Ex; lia].
      destruct (nth_error ys i) as [y0|] eqn:Ey; [|apply nth_error_None in Ey; lia].
      assert (Hgen : forall nx' ny',
        length nx' = length xs -> length ny' = length xs ->
        (forall j, j <> i -> nth_error nx' j = nth_error nx j) ->
        (forall j, j <> i -> nth_error ny' j = nth_error ny j) ->
        (nth_error nx i = Some x0 -> nth_error ny i = Some y0 ->
         nth_error nx' i = Some (fst (sbx_gene i lb ub x0 y0)) /\
         nth_error ny' i = Some (snd (sbx_gene i lb ub x0 y0))) ->
        exists rx ry, loop xs ys (S i) dims nx' ny' = Some (rx, ry) /\
          length rx = length xs /\ length ry = length xs /\
          (forall j, (j < i)%nat -> nth_error rx j = nth_error nx j /\ nth_error ry j = nth_error ny j) /\
          (forall j lb' ub' x y, (i <= j)%nat -> nth_error ((lb, ub) :: dims) (j - i) = Some (lb', ub') ->
             nth_error xs j = Some x -> nth_error ys j = Some y ->
             nth_error nx j = Some x -> nth_error ny j = Some y ->
             nth_error rx j = Some (fst (sbx_gene j lb' ub' x y)) /\
             nth_error ry j = Some (snd (sbx_gene j lb' ub' x y)))).
      { intros nx' ny' Hl1 Hl2 Ho1 Ho2 Hi.
        destruct (IH (S i) nx' ny') as (rx & ry & Hr & Hx & Hy & H1 & H2); auto; [lia|].
        exists rx, ry. repeat split; auto.
        - rewrite (proj1 (H1 j ltac:(lia))). apply Ho1. lia.
        - rewrite (proj2 (H1 j ltac:(lia))). apply Ho2. lia.
        - destruct (Nat.eq_dec j i) as [->|Hne].
          + rewrite (proj1 (H1 i ltac:(lia))). rewrite Nat.sub_diag in H0. injection H0 as <- <-.
            rewrite Ex in H3. rewrite Ey in H4. injection H3 as <-. injection H4 as <-.
            now apply Hi.
          + replace (j - i)%nat with (S (j - S i)) in H0 by lia.
            apply (H2 j lb' ub' x y); auto; [lia|rewrite Ho1|rewrite Ho2]; auto.
        - destruct (Nat.eq_dec j i) as [->|Hne].
          + rewrite (proj2 (H1 i ltac:(lia))). rewrite Nat.sub_diag in H0. injection H0 as <- <-.
            rewrite Ex in H3. rewrite Ey in H4. injection H3 as <-. injection H4 as <-.
            now apply Hi.
          + replace (j - i)%nat with (S (j - S i)) in H0 by lia.
            apply (H2 j lb' ub' x y); auto; [lia|rewrite Ho1|rewrite Ho2]; auto. }
      destruct (half <? skip i) eqn:E.
      + apply Hgen; auto. intros. rewrite (Hkeep i x0 y0) by auto. auto.
      + destruct (Z.abs (x0 - y0) <=? epsilon) eqn:E2.
        * apply Hgen; auto. intros. rewrite (Hkeep i x0 y0) by auto. auto.
        * assert (Hgene : sbx_gene i lb ub x0 y0 =
              let a := clamp lb ub (raw_a lb ub (Z.min x0 y0) (Z.max x0 y0) (rand i)) in
              let b := clamp lb ub (raw_b lb ub (Z.min x0 y0) (Z.max x0 y0) (rand i)) in
              if half <? swap i then (b, a) else (a, b)).
          { unfold sbx_gene. now rewrite E, E2. }
          cbv zeta in *. destruct (half <? swap i);
          apply Hgen; try (rewrite set_nth_length; auto);
          try (intros j Hj; rewrite nth_error_set_nth; destruct (Nat.eqb_spec i j); [lia|auto]);
          intros Hnx Hny; rewrite !nth_error_set_nth, Nat.eqb_refl, Hnx, Hny, Hgene; auto.
  Qed.

  Lemma sbx_spec xs ys dims :
    length xs = length dims -> length ys = length dims ->
    exists rx ry, loop xs ys 0 dims xs ys = Some (rx, ry) /\
      length rx = length dims /\ length ry = length dims /\
      (forall j lb ub x y, nth_error dims j = Some (lb, ub) ->
         nth_error xs j = Some x -> nth_error ys j = Some y ->
         nth_error rx j = Some (fst (sbx_gene j lb ub x y)) /\
         nth_error ry j = Some (snd (sbx_gene j lb ub x y))).
  Proof.
    intros Hx Hy. destruct (sbx_loop_spec xs ys dims 0 xs ys) as (rx & ry & Hr & H1 & H2 & _ & H);
      auto; try congruence.
    exists rx, ry. split; [auto|]. split; [congruence|]. split; [congruence|].
    intros j lb ub x y Hd Hxj Hyj. apply (H j lb ub x y); auto; [lia|]. now rewrite Nat.sub_0_r.
  Qed.

  Lemma sbx_gene_origin j lb ub x y g :
    0 <= epsilon -> lb <= ub ->
    (g = fst (sbx_gene j lb ub x y) \/ g = snd (sbx_gene j lb ub x y)) ->
    (g = x \/ g = y \/ (lb <= g <= ub)) /\ (x = y -> g = x) /\
    (lb <= x <= ub -> lb <= y <= ub -> lb <= g <= ub).
  Proof.
    intros He Hb. unfold sbx_gene.
    pose proof (clamp_in lb ub (raw_a lb ub (Z.min x y) (Z.max x y) (rand j)) Hb) as HA.
    pose proof (clamp_in lb ub (raw_b lb ub (Z.min x y) (Z.max x y) (rand j)) Hb) as HB.
    cbv zeta.
    destruct (half <? skip j); [cbn [fst snd]; intros [->| ->]; lia|].
    destruct (Z.leb_spec (Z.abs (x - y)) epsilon); [cbn [fst snd]; intros [->| ->]; lia|].
    destruct (half <? swap j); cbn [fst snd]; intros [->| ->]; (split; [auto|split; [lia|auto]]).
  Qed.

  Lemma sbx_in_box xs ys dims :
    0 <= epsilon -> valid_box dims -> in_box dims xs -> in_box dims ys ->
    exists rx ry, loop xs ys 0 dims xs ys = Some (rx, ry) /\ in_box dims rx /\ in_box dims ry.
  Proof.
    intros He Hv Hx Hy. pose proof (in_box_length _ _ Hx) as Lx. pose proof (in_box_length _ _ Hy) as Ly.
    destruct (sbx_spec xs ys dims Lx Ly) as (rx & ry & Hr & L1 & L2 & H).
    exists rx, ry. split; auto.
    assert (G : forall i lb ub, nth_error dims i = Some (lb, ub) ->
              exists a b, nth_error rx i = Some a /\ nth_error ry i = Some b /\
                          lb <= a <= ub /\ lb <= b <= ub).
    { intros i lb ub Hd. pose proof (nth_error_Some' _ _ _ Hd) as Hi.
      destruct (nth_error xs i) as [x|] eqn:Ex; [|apply nth_error_None in Ex; lia].
      destruct (nth_error ys i) as [y|] eqn:Ey; [|apply nth_error_None in Ey; lia].
      destruct (H i lb ub x y Hd Ex Ey) as [Ha Hb].
      pose proof (valid_box_nth _ _ _ _ Hv Hd) as Hlu.
      pose proof (in_box_nth _ _ _ _ _ _ Hx Hd Ex) as Bx.
      pose proof (in_box_nth _ _ _ _ _ _ Hy Hd Ey) as By.
      exists (fst (sbx_gene i lb ub x y)), (snd (sbx_gene i lb ub x y)).
      split; [auto|]. split; [auto|]. split.
      - apply (sbx_gene_origin i lb ub x y); auto.
      - apply (sbx_gene_origin i lb ub x y); auto. }
    split; apply Forall2_of_nth; try congruence; intros i [lb ub] z Hd Hz;
    destruct (G i lb ub Hd) as (a & b & Ha & Hb & Ba & Bb); cbn [fst snd]; congruence.
  Qed.

  Lemma crossover_genes r0 rate pick xs ys dims :
    0 <= epsilon -> valid_box dims -> length xs = length dims -> length ys = length dims ->
    exists zs, crossover raw_a raw_b skip rand swap half epsilon r0 rate pick xs ys dims = Some zs /\
      length zs = length dims /\
      (rate < r0 -> zs = xs \/ zs = ys) /\
      (forall j lb ub x y, nth_error dims j = Some (lb, ub) ->
         nth_error xs j = Some x -> nth_error ys j = Some y ->
         exists z, nth_error zs j = Some z /\
           (z = x \/ z = y \/ lb <= z <= ub) /\ (x = y -> z = x)) /\
      (in_box dims xs -> in_box dims ys -> in_box dims zs).
  Proof.
    intros He Hv Lx Ly. unfold crossover. destruct (Z.ltb_spec rate r0).
    - destruct pick; eexists; (split; [reflexivity|]).
      + repeat split; auto. intros j lb ub x y Hd Hx Hy. exists x. auto.
      + repeat split; auto. intros j lb ub x y Hd Hx Hy. exists y. auto.
    - destruct (sbx_spec xs ys dims Lx Ly) as (rx & ry & Hr & L1 & L2 & H0).
      rewrite Hr.
      assert (Hbox : in_box dims xs -> in_box dims ys -> in_box dims rx /\ in_box dims ry).
      { intros Bx By. destruct (sbx_in_box xs ys dims He Hv Bx By) as (rx' & ry' & Hr' & B1 & B2).
        rewrite Hr in Hr'. injection Hr' as <- <-. auto. }
      eexists. split; [reflexivity|]. split; [destruct pick; auto|]. split; [lia|]. split.
      + intros j lb ub x y Hd Hx Hy. destruct (H0 j lb ub x y Hd Hx Hy) as [Ha Hb].
        pose proof (valid_box_nth _ _ _ _ Hv Hd) as Hlu.
        destruct pick; eexists; (split; [eassumption|]).
        * destruct (sbx_gene_origin j lb ub x y (fst (sbx_gene j lb ub x y)) He Hlu (or_introl eq_refl))
            as (A & B & _). auto.
        * destruct (sbx_gene_origin j lb ub x y (snd (sbx_gene j lb ub x y)) He Hlu (or_intror eq_refl))
            as (A & B & _). auto.
      + intros Bx By. destruct (Hbox Bx By). destruct pick; auto.
  Qed.
End SBXProofs.

(** ---- NSGA-III operators ---- *)
Section NSGAIIIProofs.
  Variables raw_a raw_b : Z -> Z -> Z -> Z -> Z -> Z.
  Variables skip rand swap : nat -> Z.
  Variables half epsilon : Z.
  Variable raw : Z -> Z -> Z -> Z -> Z.
  Variables sel rnd : nat -> Z.
  Variable rate : Z.

  Lemma pm_loop_spec dims : forall i ind,
    length (v3 ind) = (i + length dims)%nat ->
    exists r, polynomial_mutation_loop raw sel rnd rate i dims ind = Some r /\
      length (v3 r) = length (v3 ind) /\
      (forall j, (j < i)%nat -> nth_error (v3 r) j = nth_error (v3 ind) j) /\
      (forall j lb ub x, (i <= j)%nat -> nth_error dims (j - i) = Some (lb, ub) ->
         nth_error (v3 ind) j = Some x ->
         nth_error (v3 r) j = Some (if rate <? sel j then x else clamp lb ub (raw lb ub x (rnd j)))) /\
      (r = ind \/ objs3 r = None).
  Proof.
    induction dims as [|[lb ub] dims IH]; intros i ind HL; simpl in HL.
    - exists ind. simpl. repeat split; auto. intros j lb ub x Hj Hd. now destruct (j - i)%nat.
    - cbn [polynomial_mutation_loop]. destruct (rate <? sel i) eqn:E.
      + destruct (IH (S i) ind) as (r & Hr & Hl & H1 & H2 & H3); [lia|].
        exists r. repeat split; auto.
        intros j lb' ub' x Hj Hd Hx. destruct (Nat.eq_dec j i) as [->|Hne].
        * rewrite E, H1 by lia. auto.
        * apply (H2 j lb' ub' x); auto; [lia|].
          replace (j - i)%nat with (S (j - S i)) in Hd by lia. auto.
      + destruct (nth_error (v3 ind) i) as [y|] eqn:Ey; [|apply nth_error_None in Ey; lia].
        destruct (IH (S i) (mk3 (set_nth i (clamp lb ub (raw lb ub y (rnd i))) (v3 ind)) None))
          as (r & Hr & Hl & H1 & H2 & H3); [cbn [v3]; rewrite set_nth_length; lia|].
        cbn [v3] in *. rewrite set_nth_length in Hl.
        exists r. split; [auto|]. split; [auto|]. split; [|split].
        * intros j Hj. rewrite H1 by lia. rewrite nth_error_set_nth.
          destruct (Nat.eqb_spec i j); [lia|auto].
        * intros j lb' ub' x Hj Hd Hx. destruct (Nat.eq_dec j i) as [->|Hne].
          -- rewrite H1 by lia. rewrite nth_error_set_nth, Nat.eqb_refl, Ey, E.
             rewrite Nat.sub_diag in Hd. injection Hd as -> ->. rewrite Ey in Hx. injection Hx as ->.
             reflexivity.
          -- replace (j - i)%nat with (S (j - S i)) in Hd by lia.
             apply (H2 j lb' ub' x); auto; [lia|].
             rewrite nth_error_set_nth. destruct (Nat.eqb_spec i j); [lia|auto].
        * right. destruct H3 as [->|H3]; auto.
  Qed.

  Lemma polynomial_mutation_ok dims ind :
    valid_box dims -> in_box dims (v3 ind) ->
    exists r, polynomial_mutation raw sel rnd rate dims ind = Some r /\
      in_box dims (v3 r) /\
      (forall j x, rate < sel j -> nth_error (v3 ind) j = Some x -> nth_error (v3 r) j = Some x) /\
      (v3 r <> v3 ind -> objs3 r = None) /\
      (objs3 r = None \/ objs3 r = objs3 ind).
  Proof.
    intros Hv Hb. pose proof (in_box_length _ _ Hb) as HL.
    destruct (pm_loop_spec dims 0 ind HL) as (r & Hr & Hl & _ & H & H3).
    exists r. split; [exact Hr|].
    assert (H' : forall j lb ub x, nth_error dims j = Some (lb, ub) -> nth_error (v3 ind) j = Some x ->
       nth_error (v3 r) j = Some (if rate <? sel j then x else clamp lb ub (raw lb ub x (rnd j)))).
    { intros j lb ub x Hd Hx. apply H; auto; [lia|]. now rewrite Nat.sub_0_r. }
    split; [|split; [|split]].
    - apply Forall2_of_nth; [congruence|]. intros i [lb ub] y Hd Hy. cbn [fst snd].
      destruct (nth_error (v3 ind) i) as [x|] eqn:Ex.
      2:{ apply nth_error_None in Ex. apply nth_error_Some' in Hd. lia. }
      rewrite (H' i lb ub x Hd Ex) in Hy. injection Hy as <-.
      destruct (rate <? sel i); [eapply in_box_nth; eauto|].
      apply clamp_in. eapply valid_box_nth; eauto.
    - intros j x Hs Hx. destruct (nth_error dims j) as [[lb ub]|] eqn:Ed.
      + rewrite (H' j lb ub x Ed Hx). apply Z.ltb_lt in Hs. now rewrite Hs.
      + apply nth_error_None in Ed. apply nth_error_Some' in Hx. lia.
    - intros Hne. destruct H3 as [->|H3]; [congruence|auto].
    - destruct H3 as [->|H3]; auto.
  Qed.

  Lemma nsgaiii_sbx_ok r0 crate pa pb dims :
    0 <= epsilon -> valid_box dims -> in_box dims (v3 pa) -> in_box dims (v3 pb) ->
    objs3 pa <> None -> objs3 pb <> None ->
    exists ca cb,
      simulated_binary_crossover raw_a raw_b skip rand swap half epsilon r0 crate pa pb dims = Some (ca, cb) /\
      in_box dims (v3 ca) /\ in_box dims (v3 cb) /\
      (objs3 ca <> None -> ca = pa) /\ (objs3 cb <> None -> cb = pb).
  Proof.
    intros He Hv Ba Bb Ha Hb. unfold simulated_binary_crossover.
    destruct (crate <? r0).
    - destruct pa as [va [oa|]], pb as [vb [ob|]]; cbn [v3 objs3] in *; try congruence.
      exists (mk3 va (Some oa)), (mk3 vb (Some ob)). auto.
    - destruct (sbx_in_box raw_a raw_b skip rand swap half epsilon (v3 pa) (v3 pb) dims He Hv Ba Bb)
        as (rx & ry & Hr & B1 & B2).
      rewrite Hr. exists (mk3 rx None), (mk3 ry None). cbn [v3 objs3]. repeat split; auto; congruence.
  Qed.

  (** Both operators in sequence, as make_offspring_individuals uses them. *)
  Lemma nsgaiii_offspring_fresh (f : vec -> vec) r0 crate pa pb dims :
    0 <= epsilon -> valid_box dims -> in_box dims (v3 pa) -> in_box dims (v3 pb) ->
    objs3 pa = Some (f (v3 pa)) -> objs3 pb = Some (f (v3 pb)) ->
    exists ca cb,
      simulated_binary_crossover raw_a raw_b skip rand swap half epsilon r0 crate pa pb dims = Some (ca, cb) /\
      forall child, child = ca \/ child = cb ->
      exists r, polynomial_mutation raw sel rnd rate dims child = Some r /\
        in_box dims (v3 r) /\ (objs3 r = None \/ objs3 r = Some (f (v3 r))).
  Proof.
    intros He Hv Ba Bb Ha Hb.
    destruct (nsgaiii_sbx_ok r0 crate pa pb dims He Hv Ba Bb) as (ca & cb & Hc & B1 & B2 & F1 & F2);
      try congruence.
    exists ca, cb. split; auto. intros child Hch.
    assert (Hbc : in_box dims (v3 child)) by (destruct Hch as [->| ->]; auto).
    assert (Hob : objs3 child = None \/ objs3 child = Some (f (v3 child))).
    { destruct Hch as [->| ->].
      - destruct (objs3 ca) eqn:E; auto. right. rewrite <- E. rewrite (F1 ltac:(discriminate)). auto.
      - destruct (objs3 cb) eqn:E; auto. right. rewrite <- E. rewrite (F2 ltac:(discriminate)). auto. }
    destruct (polynomial_mutation_ok dims child Hv Hbc) as (r & Hr & Br & _ & Hne & Ho).
    exists r. split; [auto|]. split; [auto|].
    destruct (list_eq_dec Z.eq_dec (v3 r) (v3 child)) as [E|NE]; [|auto].
    destruct Ho as [Ho|Ho]; [auto|]. rewrite Ho. rewrite E. auto.
  Qed.
End NSGAIIIProofs.

(** ---- OMOPSO ---- *)
Lemma move_ok dims : forall value speed,
  valid_box dims -> length value = length dims -> length speed = length dims ->
  exists value' speed', move dims value speed = Some (value', speed') /\
    in_box dims value' /\ length speed' = length dims /\
    forall j lb ub x s, nth_error dims j = Some (lb, ub) ->
      nth_error value j = Some x -> nth_error speed j = Some s ->
      (lb <= x + s <= ub -> nth_error value' j = Some (x + s) /\ nth_error speed' j = Some s) /\
      (x + s < lb -> nth_error value' j = Some lb /\ nth_error speed' j = Some (- s)) /\
      (ub < x + s -> nth_error value' j = Some ub /\ nth_error speed' j = Some (- s)).
Proof.
  unfold move. induction dims as [|[lb ub] dims IH]; intros value speed Hv Lv Ls.
  - destruct value, speed; try discriminate. exists [], []. simpl. repeat split; auto; try constructor;
    destruct j; discriminate.
  - destruct value as [|x value], speed as [|s speed]; try discriminate.
    inversion Hv; subst. cbn [fst snd] in *.
    destruct (IH value speed) as (v' & s' & Hm & Hb & Hl & H); auto.
    cbn [move_loop]. rewrite Hm. eexists _, _. split; [reflexivity|]. split; [|split].
    + constructor; auto. cbn [fst snd]. lia.
    + simpl. congruence.
    + intros j lb' ub' x' s0 Hd Hx Hs. destruct j as [|j].
      * simpl in Hd, Hx, Hs. injection Hd as -> ->. injection Hx as ->. injection Hs as ->.
        cbn [nth_error].
        destruct (Z.eqb_spec (Z.min (Z.max (x' + s0) lb') ub') (x' + s0)) as [E|E]; cbn [negb].
        -- repeat split; intros; try f_equal; lia.
        -- repeat split; intros; try f_equal; lia.
      * simpl in Hd, Hx, Hs. cbn [nth_error]. eapply H; eauto.
Qed.

Lemma omopso_mutation_ok touch delta dims : forall i value,
  valid_box dims -> length value = length dims ->
  exists value', omopso_mutation touch delta i dims value = Some value' /\
    length value' = length dims /\
    forall j lb ub x, nth_error dims j = Some (lb, ub) -> nth_error value j = Some x ->
      exists y, nth_error value' j = Some y /\
        (touch (i + j)%nat = false -> y = x) /\
        (touch (i + j)%nat = true -> let moved := x + delta (i + j)%nat x in
           (lb <= moved <= ub -> y = moved) /\ (moved < lb -> y = lb) /\ (ub < moved -> y = ub)).
Proof.
  induction dims as [|[lb ub] dims IH]; intros i value Hv Lv.
  - destruct value; try discriminate. exists []. simpl. repeat split; auto.
    intros j lb ub x Hd. destruct j; discriminate.
  - destruct value as [|x value]; try discriminate. inversion Hv; subst. cbn [fst snd] in *.
    destruct (IH (S i) value) as (v' & Hm & Hl & H); auto.
    cbn [omopso_mutation]. rewrite Hm. eexists. split; [reflexivity|]. split; [simpl; congruence|].
    intros j lb' ub' x' Hd Hx. destruct j as [|j]; simpl in Hd, Hx; cbn [nth_error].
    + injection Hd as -> ->. injection Hx as ->. rewrite Nat.add_0_r. eexists. split; [reflexivity|].
      destruct (touch i); split; intros; try discriminate; auto. cbv zeta. lia.
    + replace (i + S j)%nat with (S i + j)%nat by lia. eapply H; eauto.
Qed.

Lemma omopso_mutation_in_box touch delta dims value :
  valid_box dims -> in_box dims value ->
  exists value', omopso_mutation touch delta 0 dims value = Some value' /\ in_box dims value'.
Proof.
  intros Hv Hb. pose proof (in_box_length _ _ Hb) as L.
  destruct (omopso_mutation_ok touch delta dims 0 value Hv L) as (v' & Hm & Hl & H).
  exists v'. split; auto. apply Forall2_of_nth; [congruence|].
  intros j [lb ub] y Hd Hy. cbn [fst snd].
  destruct (nth_error value j) as [x|] eqn:Ex.
  2:{ apply nth_error_None in Ex. apply nth_error_Some' in Hd. lia. }
  destruct (H j lb ub x Hd Ex) as (y' & Hy' & H1 & H2). rewrite Hy in Hy'. injection Hy' as <-.
  pose proof (valid_box_nth _ _ _ _ Hv Hd) as Hlu.
  destruct (touch (0 + j)%nat); [specialize (H2 eq_refl); cbv zeta in H2; lia|].
  rewrite H1 by auto. eapply in_box_nth; eauto.
Qed.

(** ---- gene jumping over Q ---- *)
Local Open Scope Q_scope.

Definition unit_q (r : Q) : Prop := 0 <= r /\ r <= 1.

Lemma convert_ok dims : Forall (fun p => fst p < snd p) dims ->
  forall x, in_qbox dims x ->
  exists r, convert_to_ratio dims x = Some r /\ length r = length x /\ Forall unit_q r.
Proof.
  intros Hv x Hb. induction Hb as [|[lb ub] a dims x Ha Hb IH]; [exists []; auto|].
  inversion Hv as [|? ? Hlu Hv']; subst. cbn [fst snd] in *.
  destruct (IH Hv') as (r & Hr & Hl & Hu). cbn [convert_to_ratio].
  destruct (Qeq_bool (ub - lb) 0) eqn:E.
  { apply Qeq_bool_iff in E. lra. }
  rewrite Hr. eexists. split; [reflexivity|]. split; [simpl; congruence|].
  constructor; auto. split.
  - apply Qle_shift_div_l; lra.
  - apply Qle_shift_div_r; lra.
Qed.

Lemma decode_ok dims : Forall (fun p => fst p < snd p) dims ->
  forall r, length r = length dims -> Forall unit_q r ->
  exists x, decode_ratio dims r = Some x /\ length x = length r /\ in_qbox dims x.
Proof.
  induction dims as [|[lb ub] dims IH]; intros Hv [|a r] HL Hu; try discriminate.
  - exists []. repeat split; auto. constructor.
  - inversion Hv as [|? ? Hlu Hv']; subst. inversion Hu as [|? ? Ha Hu']; subst.
    cbn [fst snd] in *. destruct Ha as [Ha0 Ha1].
    destruct (IH Hv' r) as (x & Hx & Hl & Hb); auto.
    cbn [decode_ratio]. rewrite Hx. eexists. split; [reflexivity|]. split; [simpl; congruence|].
    constructor; auto. cbn [fst snd].
    assert (0 <= a * (ub - lb)) by (apply Qmult_le_0_compat; lra).
    assert (0 <= (1 - a) * (ub - lb)) by (apply Qmult_le_0_compat; lra).
    split; nra.
Qed.

Lemma pick_all_ok {A} (l : list A) idx : Forall (fun i => (i < length l)%nat) idx ->
  exists t, pick_all l idx = Some t /\ length t = length idx /\ incl t l.
Proof.
  induction 1 as [|i idx Hi H IH].
  - exists []. repeat split; auto. intros z [].
  - destruct IH as (t & Ht & Hl & HI). simpl. rewrite Ht.
    destruct (nth_error l i) as [a|] eqn:E; [|apply nth_error_None in E; lia].
    exists (a :: t). repeat split; simpl; auto. intros z [<-|Hz]; auto. eapply nth_error_In; eauto.
Qed.

Lemma del_nth_ok {A} (l : list A) : forall i, (i < length l)%nat ->
  exists r, del_nth i l = Some r /\ S (length r) = length l /\ incl r l.
Proof.
  induction l as [|a l IH]; intros i Hi; [simpl in Hi; lia|].
  destruct i as [|i]; simpl.
  - exists l. repeat split; auto. intros z Hz. now right.
  - destruct (IH i) as (r & Hr & Hl & HI); [simpl in Hi; lia|]. rewrite Hr.
    exists (a :: r). repeat split; simpl; [lia|]. intros z [<-|Hz]; [now left|right; auto].
Qed.

Lemma multi_delete_run {A} idx : forall (l : list A),
  StronglySorted (fun i j => (j < i)%nat) idx -> Forall (fun i => (i < length l)%nat) idx ->
  exists r, fold_left (fun acc i => match acc with Some l => del_nth i l | None => None end)
              idx (Some l) = Some r /\ (length r + length idx = length l)%nat /\ incl r l.
Proof.
  induction idx as [|i idx IH]; intros l Hs Hf; cbn [fold_left].
  - exists l. repeat split; [simpl; lia|]. intros z Hz; auto.
  - inversion Hs; subst. inversion Hf; subst.
    destruct (del_nth_ok l i) as (r & Hr & Hl & HI); auto. rewrite Hr.
    destruct (IH r) as (r' & Hr' & Hl' & HI'); auto.
    { rewrite Forall_forall in *. intros j Hj. specialize (H2 j Hj). lia. }
    exists r'. repeat split; auto; [simpl; lia|]. intros z Hz; auto.
Qed.

Lemma StronglySorted_snoc {A} (R : A -> A -> Prop) l a :
  StronglySorted R l -> Forall (fun x => R x a) l -> StronglySorted R (l ++ [a]).
Proof.
  induction 1 as [|b l Hs IH Hf]; intros Ha; simpl; [repeat constructor|].
  inversion Ha; subst. constructor; auto. apply Forall_app. split; auto.
Qed.

Lemma StronglySorted_rev {A} (R : A -> A -> Prop) l :
  StronglySorted R l -> StronglySorted (fun a b => R b a) (rev l).
Proof.
  induction 1 as [|a l Hs IH Hf]; simpl; [constructor|].
  apply StronglySorted_snoc; auto. rewrite Forall_forall in *. intros x Hx. apply Hf.
  now apply in_rev.
Qed.

Lemma multi_delete_ok {A} idx (l : list A) :
  StronglySorted lt idx -> Forall (fun i => (i < length l)%nat) idx ->
  exists r, multi_delete l idx = Some r /\ (length r + length idx = length l)%nat /\ incl r l.
Proof.
  intros Hs Hf. unfold multi_delete.
  destruct (multi_delete_run (rev idx) l) as (r & Hr & Hl & HI).
  - apply (StronglySorted_rev lt); auto.
  - now apply Forall_rev.
  - exists r. rewrite rev_length in Hl. auto.
Qed.

Lemma Forall_incl {A} (P : A -> Prop) l l' : incl l' l -> Forall P l -> Forall P l'.
Proof. intros HI H. rewrite Forall_forall in *. auto. Qed.

Lemma Forall_firstn {A} (P : A -> Prop) n l : Forall P l -> Forall P (firstn n l).
Proof.
  intros H. rewrite <- (firstn_skipn n l) in H. apply Forall_app in H. tauto.
Qed.
Lemma Forall_skipn {A} (P : A -> Prop) n l : Forall P l -> Forall P (skipn n l).
Proof.
  intros H. rewrite <- (firstn_skipn n l) in H. apply Forall_app in H. tauto.
Qed.

Lemma Forall_set_nth {A} (P : A -> Prop) i v l : Forall P l -> P v -> Forall P (set_nth i v l).
Proof.
  intros H Hv. revert i. induction H as [|a l Ha H IH]; intros i; simpl; auto.
  destruct i; constructor; auto.
Qed.

Lemma paste_ok (P : Q -> Prop) ts : forall x pos, Forall P x -> Forall P ts ->
  length (paste x ts pos) = length x /\ Forall P (paste x ts pos).
Proof.
  induction ts as [|t ts IH]; intros x pos Hx Ht; simpl; auto.
  inversion Ht; subst. destruct (length x <=? S pos)%nat.
  - split; [apply set_nth_length|now apply Forall_set_nth].
  - destruct (IH (set_nth pos t x) (S pos)) as [H3 H4]; auto.
    + now apply Forall_set_nth.
    + rewrite set_nth_length in H3. auto.
Qed.

Lemma prepare_ok dims pos x :
  Forall (fun p => fst p < snd p) dims -> in_qbox dims x ->
  Forall (fun i => (i < length x)%nat) pos ->
  exists r t, prepare_transposon dims x pos = Some (r, t) /\ length r = length x /\
              length t = length pos /\ Forall unit_q r /\ Forall unit_q t.
Proof.
  intros Hv Hb Hp. unfold prepare_transposon.
  destruct (convert_ok dims Hv x Hb) as (r & Hr & Hl & Hu). rewrite Hr.
  destruct (pick_all_ok r pos) as (t & Ht & Hlt & HI); [now rewrite Hl|]. rewrite Ht.
  exists r, t. repeat split; auto. eapply Forall_incl; eauto.
Qed.

Lemma in_qbox_length b v : in_qbox b v -> length v = length b.
Proof. intros H. symmetry. eapply Forall2_length'; eauto. Qed.

Lemma cut_and_paste_ok dims xpos ypos xi yi x y :
  Forall (fun p => fst p < snd p) dims -> in_qbox dims x -> in_qbox dims y ->
  StronglySorted lt xpos -> StronglySorted lt ypos -> length xpos = length ypos ->
  Forall (fun i => (i < length dims)%nat) xpos -> Forall (fun i => (i < length dims)%nat) ypos ->
  exists a b, cut_and_paste dims xpos ypos xi yi x y = Some (a, b) /\
    length a = length x /\ length b = length y /\ in_qbox dims a /\ in_qbox dims b.
Proof.
  intros Hv Hx Hy Sx Sy Hle Fx Fy.
  pose proof (in_qbox_length _ _ Hx) as Lx. pose proof (in_qbox_length _ _ Hy) as Ly.
  destruct (prepare_ok dims xpos x Hv Hx) as (xr & xt & Ex & L1 & L2 & U1 & U2); [now rewrite Lx|].
  destruct (prepare_ok dims ypos y Hv Hy) as (yr & yt & Ey & L3 & L4 & U3 & U4); [now rewrite Ly|].
  unfold cut_and_paste. rewrite Ex, Ey.
  destruct (multi_delete_ok xpos xr Sx) as (xr' & Dx & L5 & I5); [now rewrite L1, Lx|].
  destruct (multi_delete_ok ypos yr Sy) as (yr' & Dy & L6 & I6); [now rewrite L3, Ly|].
  rewrite Dx, Dy.
  assert (G : forall n (r t : list Q), length (firstn n r ++ t ++ skipn n r) = (length r + length t)%nat).
  { intros n r t. rewrite !app_length. rewrite <- (firstn_skipn n r) at 3. rewrite app_length. lia. }
  destruct (decode_ok dims Hv (firstn xi xr' ++ yt ++ skipn xi xr')) as (a & Da & La & Ba).
  { rewrite G. lia. }
  { apply Forall_app. split; [apply Forall_firstn; eapply Forall_incl; eauto|].
    apply Forall_app. split; auto. apply Forall_skipn; eapply Forall_incl; eauto. }
  destruct (decode_ok dims Hv (firstn yi yr' ++ xt ++ skipn yi yr')) as (b & Db & Lb & Bb).
  { rewrite G. lia. }
  { apply Forall_app. split; [apply Forall_firstn; eapply Forall_incl; eauto|].
    apply Forall_app. split; auto. apply Forall_skipn; eapply Forall_incl; eauto. }
  rewrite Da, Db. exists a, b. rewrite G in La, Lb. repeat split; auto; lia.
Qed.

Lemma copy_and_paste_ok dims xpos ypos xi yi x y :
  Forall (fun p => fst p < snd p) dims -> in_qbox dims x -> in_qbox dims y ->
  Forall (fun i => (i < length dims)%nat) xpos -> Forall (fun i => (i < length dims)%nat) ypos ->
  exists a b, copy_and_paste dims xpos ypos xi yi x y = Some (a, b) /\
    length a = length x /\ length b = length y /\ in_qbox dims a /\ in_qbox dims b.
Proof.
  intros Hv Hx Hy Fx Fy.
  pose proof (in_qbox_length _ _ Hx) as Lx. pose proof (in_qbox_length _ _ Hy) as Ly.
  destruct (prepare_ok dims xpos x Hv Hx) as (xr & xt & Ex & L1 & L2 & U1 & U2); [now rewrite Lx|].
  destruct (prepare_ok dims ypos y Hv Hy) as (yr & yt & Ey & L3 & L4 & U3 & U4); [now rewrite Ly|].
  unfold copy_and_paste. rewrite Ex, Ey.
  destruct (paste_ok unit_q yt xr xi U1 U4) as [P1 P2].
  destruct (paste_ok unit_q xt yr yi U3 U2) as [P3 P4].
  destruct (decode_ok dims Hv (paste xr yt xi)) as (a & Da & La & Ba); [congruence|auto|].
  destruct (decode_ok dims Hv (paste yr xt yi)) as (b & Db & Lb & Bb); [congruence|auto|].
  rewrite Da, Db. exists a, b. repeat split; auto; congruence.
Qed.

(** The ratio encoding is lossless. *)
Lemma decode_convert dims : Forall (fun p => fst p < snd p) dims ->
  forall x, length x = length dims ->
  exists r x', convert_to_ratio dims x = Some r /\ decode_ratio dims r = Some x' /\ Forall2 Qeq x' x.
Proof.
  induction dims as [|[lb ub] dims IH]; intros Hv [|a x] HL; try discriminate.
  - exists [], []. repeat split; auto.
  - inversion Hv as [|? ? Hlu Hv']; subst. cbn [fst snd] in *.
    destruct (IH Hv' x) as (r & x' & Hr & Hx & HE); auto.
    cbn [convert_to_ratio]. destruct (Qeq_bool (ub - lb) 0) eqn:E.
    { apply Qeq_bool_iff in E. lra. }
    rewrite Hr. eexists _, _. split; [reflexivity|]. cbn [decode_ratio]. rewrite Hx.
    split; [reflexivity|]. constructor; auto. field. lra.
Qed.

Lemma gen_vector_ok u dims : forall i,
  Forall (fun p => fst p <= snd p) dims -> (forall k, 0 <= u k /\ u k <= 1) ->
  in_qbox dims (gen_vector u i dims).
Proof.
  induction dims as [|[a b] dims IH]; intros i Hv Hu; simpl; constructor.
  - inversion Hv; subst. cbn [fst snd] in *. destruct (Hu i) as [H0 H3].
    assert (0 <= (b - a) * u i) by (apply Qmult_le_0_compat; lra).
    assert (0 <= (b - a) * (1 - u i)) by (apply Qmult_le_0_compat; lra).
    split; nra.
  - inversion Hv; subst. apply IH; auto.
Qed.

Lemma gen_vector_nth u dims : forall i j a b, nth_error dims j = Some (a, b) ->
  nth_error (gen_vector u i dims) j = Some (a + (b - a) * u (i + j)%nat).
Proof.
  induction dims as [|[a0 b0] dims IH]; intros i [|j] a b H; try discriminate; cbn in H; cbn [gen_vector nth_error].
  - injection H as <- <-. now rewrite Nat.add_0_r.
  - rewrite (IH (S i) j a b H). do 3 f_equal. f_equal. lia.
Qed.
Lemma gen_population_nth u count dims k j a b : (k < count)%nat -> nth_error dims j = Some (a, b) ->
  exists v, nth_error (gen_population u count dims) k = Some v /\ nth_error v j = Some (a + (b - a) * u k j).
Proof.
  intros Hk H. exists (gen_vector (u k) 0 dims). split.
  - unfold gen_population. rewrite nth_error_map.
    rewrite nth_error_nth' with (d := 0%nat) by (rewrite seq_length; exact Hk). now rewrite seq_nth.
  - exact (gen_vector_nth (u k) dims 0 j a b H).
Qed.

Lemma gen_population_ok u count dims :
  Forall (fun p => fst p <= snd p) dims -> (forall k i, 0 <= u k i /\ u k i <= 1) ->
  length (gen_population u count dims) = count /\
  Forall (fun v => length v = length dims /\ in_qbox dims v) (gen_population u count dims).
Proof.
  intros Hv Hu. unfold gen_population. split; [now rewrite map_length, seq_length|].
  apply Forall_forall. intros v H. apply in_map_iff in H. destruct H as (k & <- & _).
  pose proof (gen_vector_ok (u k) dims 0 Hv (Hu k)) as HB. split; auto.
  now apply in_qbox_length.
Qed.
