(** C160: how likely an individual becomes a parent. *)
From Coq Require Import QArith Reals Lqa.
From Verif Require Import Spec NsgaModel NsgaSpec NsgaProofs CrowdProofs IbeaModel SpeaModel ParentSpec ParentProofs.
Local Open Scope nat_scope.

(** NSGA-II: whatever the other draws, the chance that tournament [k] is won by survivor [x] depends only on the
    number of survivors and how many of them are worse ([w]) and better ([b]) than [x].  The code has p = 9/10. *)
Theorem C160_nsgaii :
  forall (D : step_draws) (eps : Q) (rank : nat -> nat) (d : nat -> dist) (survivors : list nat) (M k x w b : nat) (p : Q),
    (0 < eps)%Q -> (forall y, In y survivors -> crowd_nonneg (d y)) -> NoDup survivors -> In x survivors -> k < 2 * M ->
    number_of (fun y => nsga_better rank d x y) survivors w -> number_of (fun y => nsga_better rank d y x) survivors b ->
    let n := length survivors in
    (chance_with_coin p n (slot (fun D => mating_selection D (fitness_key eps rank d) survivors M) D k) x
     == (of_nat n + (2 * p - 1) * (of_nat w - of_nat b)) / of_nat (n * n))%Q.
Proof.
  intros D eps rank d S M k x w b p He Hc NS Hx Hk Hw Hb n.
  set (lt := fun a b => key_lt (fitness_key eps rank d a) (fitness_key eps rank d b)).
  assert (E : forall a b, In a S -> In b S -> (lt a b = true <-> nsga_better rank d a b))
    by (intros a b' Ha Hb'; apply key_lt_better; auto).
  rewrite (number_unique _ _ _ _ Hw (number_filter (lt x) _ S NS (fun y Hy => E x y Hx Hy))).
  rewrite (number_unique _ _ _ _ Hb (number_filter (fun y => lt y x) _ S NS (fun y Hy => E y x Hy Hx))).
  apply coin_chance; [intros a c; apply key_lt_asym | exact NS | exact Hx|].
  intros i j Hi Hj. split; exact (slot_collect S (fun c x1 x2 => if c then (if lt x1 x2 then x1 else x2) else (if lt x2 x1 then x1 else x2)) D k M _ i j Hk Hi Hj).
Qed.
Print Assumptions C160_nsgaii.

(** So the better of two is the likelier parent. *)
Theorem C160_nsgaii_prefers_the_better :
  forall (D : step_draws) (eps : Q) (rank : nat -> nat) (d : nat -> dist) (survivors : list nat) (M k x y : nat) (p : Q),
    (0 < eps)%Q -> (forall y, In y survivors -> crowd_nonneg (d y)) -> NoDup survivors -> In x survivors -> In y survivors ->
    k < 2 * M -> (1 # 2 < p)%Q -> nsga_better rank d x y ->
    let chance z := chance_with_coin p (length survivors) (slot (fun D => mating_selection D (fitness_key eps rank d) survivors M) D k) z in
    (chance y < chance x)%Q.
Proof.
  intros D eps rank d S M k x y p He Hc NS Hx Hy Hk Hp Hxy chance. unfold chance.
  set (lt := fun a b => key_lt (fitness_key eps rank d a) (fitness_key eps rank d b)).
  assert (E : forall a b, In a S -> In b S -> (lt a b = true <-> nsga_better rank d a b))
    by (intros a b' Ha Hb'; apply key_lt_better; auto).
  rewrite (C160_nsgaii D eps rank d S M k x _ _ p He Hc NS Hx Hk (number_filter (lt x) _ S NS (fun z Hz => E x z Hx Hz))
             (number_filter (fun z => lt z x) _ S NS (fun z Hz => E z x Hz Hx))).
  rewrite (C160_nsgaii D eps rank d S M k y _ _ p He Hc NS Hy Hk (number_filter (lt y) _ S NS (fun z Hz => E y z Hy Hz))
             (number_filter (fun z => lt z y) _ S NS (fun z Hz => E z y Hz Hy))).
  apply (likelier lt); auto; [intros a c; apply key_lt_asym | intros a c e; apply key_lt_trans | now apply E].
Qed.
Print Assumptions C160_nsgaii_prefers_the_better.

(** SPEA2: the tournament between two different members of the archive (lower fitness is better). *)
Theorem C160_spea2 :
  forall (fit : nat -> R) (pool : list nat) (x w b : nat),
    NoDup pool -> In x pool ->
    number_of (fun y => (fit x < fit y)%R) pool w -> number_of (fun y => (fit y < fit x)%R) pool b ->
    let n := length pool in
    (chance_of_sample n (fun i j => tournament fit pool (i, j)) x
     == (of_nat (n - 1) + of_nat w - of_nat b) / of_nat (n * (n - 1)))%Q.
Proof.
  intros fit S x w b NS Hx Hw Hb n.
  rewrite (number_unique _ _ _ _ Hw (number_filter (rlt fit x) _ S NS (fun y _ => rlt_iff fit x y))).
  rewrite (number_unique _ _ _ _ Hb (number_filter (fun y => rlt fit y x) _ S NS (fun y _ => rlt_iff fit y x))).
  pose proof (sample_wins fit S x NS Hx) as H. unfold chance_of_sample, of_nat. fold n in H. apply Qmult_comp; [|reflexivity].
  rewrite <- inject_Z_plus. unfold Qminus. rewrite <- inject_Z_opp, <- inject_Z_plus. apply inject_Z_injective. lia.
Qed.
Print Assumptions C160_spea2.

(** IBEA: the same as NSGA-II with the roles of worse and better exchanged: [w] survivors are less fit than [x] and [b]
    are fitter.  Missing: that the fitter is the likelier parent, which is false (below). *)
Theorem C160_ibea_partial :
  forall (D : step_draws) (fitness : nat -> R) (survivors : list nat) (M k x w b : nat) (p : Q),
    NoDup survivors -> In x survivors -> k < 2 * M ->
    number_of (fun y => (fitness y < fitness x)%R) survivors w -> number_of (fun y => (fitness x < fitness y)%R) survivors b ->
    let n := length survivors in
    (chance_with_coin p n (slot (fun D => ibea_mating D fitness survivors M) D k) x
     == (of_nat n - (2 * p - 1) * (of_nat w - of_nat b)) / of_nat (n * n))%Q.
Proof.
  intros D fitness S M k x w b p NS Hx Hk Hw Hb n.
  rewrite (number_unique _ _ _ _ Hw (number_filter (fun y => rlt fitness y x) _ S NS (fun y _ => rlt_iff fitness y x))).
  rewrite (number_unique _ _ _ _ Hb (number_filter (rlt fitness x) _ S NS (fun y _ => rlt_iff fitness x y))).
  eapply Qeq_trans; [apply (coin_chance (rlt fitness) _ S x p (rlt_asym fitness) NS Hx)|].
  - assert (Bt : forall c x1 x2, better fitness c x1 x2 = if c then (if rlt fitness x1 x2 then x1 else x2) else (if rlt fitness x2 x1 then x1 else x2)).
    { intros c x1 x2. unfold better, rlt. destruct c; [destruct (Rlt_dec (fitness x1) (fitness x2)) | destruct (Rlt_dec (fitness x2) (fitness x1))]; reflexivity. }
    intros i j Hi Hj. pose proof (fun c => slot_collect S (better fitness) D k M c i j Hk Hi Hj) as Sl.
    split; [etransitivity; [apply (Sl true)|]; now rewrite (Bt true) | etransitivity; [apply (Sl false)|]; now rewrite (Bt false)].
  - apply Qmult_comp; [fold n; ring | reflexivity].
Qed.
Print Assumptions C160_ibea_partial.

(** The less fit of two is always the likelier parent; the code has p = 9/10. *)
Theorem C160_ibea_prefers_the_fitter_refuted :
  forall (D : step_draws) (fitness : nat -> R) (survivors : list nat) (M k x y : nat),
    NoDup survivors -> In x survivors -> In y survivors -> k < 2 * M -> (fitness y < fitness x)%R ->
    let chance z := chance_with_coin (9 # 10) (length survivors) (slot (fun D => ibea_mating D fitness survivors M) D k) z in
    (chance x < chance y)%Q.
Proof.
  intros D fitness S M k x y NS Hx Hy Hk Hxy chance. unfold chance.
  rewrite (C160_ibea_partial D fitness S M k x _ _ _ NS Hx Hk (number_filter (fun z => rlt fitness z x) _ S NS (fun z _ => rlt_iff fitness z x))
             (number_filter (rlt fitness x) _ S NS (fun z _ => rlt_iff fitness x z))).
  rewrite (C160_ibea_partial D fitness S M k y _ _ _ NS Hy Hk (number_filter (fun z => rlt fitness z y) _ S NS (fun z _ => rlt_iff fitness z y))
             (number_filter (rlt fitness y) _ S NS (fun z _ => rlt_iff fitness y z))).
  pose proof (likelier (rlt fitness) y x S (9 # 10) (rlt_asym fitness) (rlt_trans fitness) NS Hx (proj2 (rlt_iff fitness y x) Hxy) eq_refl) as H.
  cbv zeta in H.
  match goal with |- (?a < ?b)%Q => match type of H with (?c < ?e)%Q =>
    setoid_replace a with c; [setoid_replace b with e; [exact H|]|] end end; (apply Qmult_comp; [ring | reflexivity]).
Qed.
Print Assumptions C160_ibea_prefers_the_fitter_refuted.

(** Four survivors, each better than the next one: chances 2/5, 3/10, ..., 1/10. *)
Example C160_example :
  let rank := fun i => nth i [1; 1; 2; 3] 0 in let d := fun i => nth i [Inf; Fin 1; Fin 1; Fin 1] Inf in
  let pool D := mating_selection D (fitness_key (1 # 100) rank d) [0; 1; 2; 3] 1 in
  let D := {| choice := fun _ => 0; coin := fun _ => true; cx_r0 := fun _ => 0%Z; cx_pick := fun _ => true;
              cx_skip := fun _ _ => 0%Z; cx_rand := fun _ _ => 1%Z; cx_swap := fun _ _ => 0%Z;
              mu_sel := fun _ _ => 0%Z; mu_rnd := fun _ _ => 2%Z |} in
  (chance_with_coin (9 # 10) 4 (slot pool D 1) 0 == 2 # 5)%Q /\ (chance_with_coin (9 # 10) 4 (slot pool D 1) 1 == 3 # 10)%Q /\
  (chance_with_coin (9 # 10) 4 (slot pool D 1) 3 == 1 # 10)%Q.
Proof. repeat split; vm_compute; reflexivity. Qed.

(** IBEA with three survivors of fitness 0, 1 and 2: chances 23/45, 1/3 and 7/45. *)
Example C160_ibea_example :
  let pool D := ibea_mating D INR [0; 1; 2] 1 in
  let D := {| choice := fun _ => 0; coin := fun _ => true; cx_r0 := fun _ => 0%Z; cx_pick := fun _ => true;
              cx_skip := fun _ _ => 0%Z; cx_rand := fun _ _ => 1%Z; cx_swap := fun _ _ => 0%Z;
              mu_sel := fun _ _ => 0%Z; mu_rnd := fun _ _ => 2%Z |} in
  (chance_with_coin (9 # 10) 3 (slot pool D 0) 0%nat == 23 # 45)%Q /\
  (chance_with_coin (9 # 10) 3 (slot pool D 0) 2%nat == 7 # 45)%Q.
Proof.
  intros pool D; subst pool.
  assert (NS : NoDup [0; 1; 2]) by (repeat constructor; cbn; intuition lia).
  assert (Nu : forall (P : nat -> Prop) L, NoDup L -> (forall y, In y L <-> In y [0; 1; 2] /\ P y) -> number_of P [0; 1; 2] (length L)) by (intros P L H1 H2; exists L; auto).
  assert (LT : forall a b, (INR a < INR b)%R <-> a < b) by (intros a b; split; [apply INR_lt | apply lt_INR]).
  split.
  - rewrite (C160_ibea_partial _ INR [0; 1; 2] 1 0 0 0 2 (9 # 10) NS); [reflexivity | cbn; auto | lia | apply (Nu _ []) | apply (Nu _ [1; 2])];
      try (repeat constructor; cbn; intuition lia); intros y; rewrite LT; cbn; intuition lia.
  - rewrite (C160_ibea_partial _ INR [0; 1; 2] 1 0 2 2 0 (9 # 10) NS); [reflexivity | cbn; auto | lia | apply (Nu _ [0; 1]) | apply (Nu _ [])];
      try (repeat constructor; cbn; intuition lia); intros y; rewrite LT; cbn; intuition lia.
Qed.
