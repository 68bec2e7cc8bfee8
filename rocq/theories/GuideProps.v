(** C165: which leaders guide the particles of OMOPSO. *)
From Verif Require Import Spec OmopsoModel ParentSpec ParentProofs GuideSpec.
From Coq Require Import QArith Lqa.
Local Open Scope nat_scope.

Lemma number_in_unique {A} (P : A -> Prop) l n m : number_in P l n -> number_in P l m -> n = m.
Proof.
  intros (L & N & H & <-) (L' & N' & H' & <-). apply Permutation_length. apply NoDup_Permutation; auto.
  intros y. rewrite H, H'. reflexivity.
Qed.
Lemma pairs_giving_unique {A} n (choose : nat * nat -> option A) x c c' :
  pairs_giving n choose x c -> pairs_giving n choose x c' -> c = c'.
Proof.
  intros (L & N & H & <-) (L' & N' & H' & <-). apply Permutation_length. apply NoDup_Permutation; auto.
  intros (i, j). rewrite H, H'. reflexivity.
Qed.
Lemma crowd_lt_iff a b : crowd_lt (l_crowd a) (l_crowd b) = true <-> more_crowded a b.
Proof.
  unfold crowd_lt, more_crowded. destruct (l_crowd a) as [x|], (l_crowd b) as [y|]; try (split; [discriminate | intros []]); try tauto.
  rewrite Bool.negb_true_iff. split.
  - intros E. apply Qnot_le_lt. intros H. apply Qle_bool_iff in H. congruence.
  - intros H. destruct (Qle_bool y x) eqn:E; [|reflexivity]. apply Qle_bool_iff in E. lra.
Qed.
Lemma more_crowded_asym a b : more_crowded a b -> ~ more_crowded b a.
Proof. unfold more_crowded. destruct (l_crowd a), (l_crowd b); try tauto. intros ? ?. lra. Qed.
Lemma more_crowded_trans a b c : more_crowded a b -> more_crowded b c -> more_crowded a c.
Proof. unfold more_crowded. destruct (l_crowd a), (l_crowd b), (l_crowd c); try tauto. intros ? ?. lra. Qed.

Definition nobody : leader := mk_leader [] [] None.
Lemma nth_seq_leaders (S : list leader) : map (fun i => nth i S nobody) (seq 0 (length S)) = S.
Proof.
  induction S as [|a S IH]; cbn [length seq map nth]; [reflexivity|]. f_equal. rewrite <- seq_shift, map_map. exact IH.
Qed.
Lemma number_in_positions (b : leader -> bool) (P : leader -> Prop) l : NoDup l -> (forall y, In y l -> (b y = true <-> P y)) ->
  number_in P l (length (filter (fun i => b (nth i l nobody)) (seq 0 (length l)))).
Proof.
  intros N H. exists (filter b l). split; [now apply NoDup_filter|]. split.
  - intros y. rewrite filter_In. split; intros (A & B); (split; [exact A|]); now apply H.
  - rewrite <- (filter_map_length (fun i => nth i l nobody) b), nth_seq_leaders. reflexivity.
Qed.
Lemma nodup_prod {A B} (l : list A) (l' : list B) : NoDup l -> NoDup l' -> NoDup (list_prod l l').
Proof.
  intros N N'. induction N as [|a l Ha N IH]; cbn; [constructor|].
  assert (G : forall q r : list (A * B), NoDup q -> NoDup r -> (forall z, In z q -> ~ In z r) -> NoDup (q ++ r)).
  { induction q as [|z q IHq]; intros r Nq Nr D; cbn; [exact Nr|]. inversion Nq; subst. constructor.
    - rewrite in_app_iff. intros [?|?]; [contradiction | exact (D z (or_introl eq_refl) H)].
    - apply IHq; auto. intros w Hw. apply D. now right. }
  apply G; [|exact IH|].
  - apply FinFun.Injective_map_NoDup; [|exact N']. intros x y E. congruence.
  - intros (x, y) Hz Hz'. apply in_map_iff in Hz. destruct Hz as (y' & E & _). injection E as <- <-.
    apply in_prod_iff in Hz'. tauto.
Qed.

Lemma leader_count leaders p : NoDup leaders -> 2 <= length leaders -> p < length leaders ->
  let n := length leaders in
  let lt i j := crowd_lt (l_crowd (nth i leaders nobody)) (l_crowd (nth j leaders nobody)) in
  exists c, pairs_giving n (choose_leader leaders) (nth p leaders nobody) c /\
    c + length (filter (fun i => lt i p) (seq 0 n)) = n - 1 + length (filter (lt p) (seq 0 n)).
Proof.
  intros N H2 Hp n lt.
  set (winner := fun i j => Some (if negb (lt j i) then i else j)).
  set (test := fun ij : nat * nat => negb (fst ij =? snd ij) && match winner (fst ij) (snd ij) with Some w => w =? p | None => false end).
  exists (wins n (fun i j => negb (i =? j)) winner p).
  split.
  - exists (filter test (list_prod (seq 0 n) (seq 0 n))). split; [apply NoDup_filter, nodup_prod; apply seq_NoDup|]. split; [|reflexivity].
    intros i j. rewrite filter_In, in_prod_iff, !in_seq. unfold test, winner. cbn [fst snd].
    assert (W : forall a b, a < n -> b < n -> choose_leader leaders (a, b) = Some (nth (if negb (lt b a) then a else b) leaders nobody)).
    { intros a b Ha Hb. unfold choose_leader. cbn [fst snd]. replace (1 <? length leaders) with true by (symmetry; apply Nat.ltb_lt; lia).
      rewrite (nth_error_nth' leaders nobody Ha), (nth_error_nth' leaders nobody Hb). unfold lt. destruct (crowd_lt _ _); reflexivity. }
    split.
    + intros ((Hi & Hj) & T). apply andb_prop in T. destruct T as (T1 & T2). apply Bool.negb_true_iff, Nat.eqb_neq in T1. apply Nat.eqb_eq in T2.
      split; [lia|]. split; [lia|]. split; [exact T1|]. rewrite (W i j) by lia. now rewrite T2.
    + intros (Hi & Hj & D & E). split; [lia|]. rewrite (W i j Hi Hj) in E. injection E as E.
      apply andb_true_intro. split; [now apply Bool.negb_true_iff, Nat.eqb_neq|]. apply Nat.eqb_eq.
      apply (proj1 (NoDup_nth leaders nobody) N); [destruct (negb (lt j i)); assumption | exact Hp | exact E].
  - assert (L : length (seq 0 n) = n) by apply seq_length.
    assert (Irr : lt p p = false) by (unfold lt; destruct (crowd_lt _ _) eqn:E; [apply crowd_lt_iff in E; exfalso; exact (more_crowded_asym _ _ E E) | reflexivity]).
    assert (As : forall y, lt p y = true -> lt y p = false).
    { intros y E. destruct (lt y p) eqn:F; [|reflexivity]. apply crowd_lt_iff in E, F. exfalso. exact (more_crowded_asym _ _ E F). }
    assert (Hin : In p (seq 0 n)) by (apply in_seq; lia).
    pose proof (wins_pairs (fun a b => negb (lt b a)) false (fun i j => negb (i =? j)) winner (seq 0 n) p (seq_NoDup n 0) Hin
                  (fun i j _ _ => eq_refl)) as W. rewrite L in W. rewrite W.
    + pose proof (others_lt lt p (seq 0 n) As Irr (seq_NoDup n 0) Hin) as O. rewrite L in O.
      replace (others (fun y => negb (negb (lt p y))) p (seq 0 n)) with (others (lt p) p (seq 0 n))
        by (unfold others; apply filter_length_ext; intros y _; now rewrite Bool.negb_involutive).
      unfold n in *. lia.
    + intros i j Hi Hj _. rewrite !seq_nth by assumption. reflexivity.
Qed.

(** If [sparser] of the n leaders have a larger crowding distance than [x] and [denser] a smaller one, [x] is the result
    of (n - 1 + sparser - denser) of the n (n - 1) equally likely tournaments.
    Missing: that the leaders in sparse places are preferred, which is refuted below. *)
Theorem C165_leader_partial :
  forall (leaders : list leader) (x : leader) (sparser denser : nat),
    NoDup leaders -> 2 <= length leaders -> In x leaders ->
    number_in (fun y => more_crowded x y) leaders sparser -> number_in (fun y => more_crowded y x) leaders denser ->
    let n := length leaders in
    exists c, pairs_giving n (choose_leader leaders) x c /\
      (chance c n == (of_nat (n - 1) + of_nat sparser - of_nat denser) / of_nat (n * (n - 1)))%Q.
Proof.
  intros leaders x s d N H2 Hx Hs Hd n. apply (In_nth _ _ nobody) in Hx. destruct Hx as (p & Hp & <-).
  rewrite (number_in_unique _ _ _ _ Hs (number_in_positions (fun y => crowd_lt (l_crowd (nth p leaders nobody)) (l_crowd y)) _ _ N (fun y _ => crowd_lt_iff _ y))).
  rewrite (number_in_unique _ _ _ _ Hd (number_in_positions (fun y => crowd_lt (l_crowd y) (l_crowd (nth p leaders nobody))) _ _ N (fun y _ => crowd_lt_iff y _))).
  destruct (leader_count leaders p N H2 Hp) as (c & Hc & E). exists c. split; [exact Hc|]. unfold chance, of_nat.
  apply Qmult_comp; [|reflexivity]. rewrite <- inject_Z_plus. unfold Qminus. rewrite <- inject_Z_opp, <- inject_Z_plus.
  apply inject_Z_injective. cbv zeta beta in E. subst n. cbv beta. lia.
Qed.
Print Assumptions C165_leader_partial.

(** Of any two leaders the one in the more crowded place is the likelier guide. *)
Theorem C165_sparse_places_refuted :
  forall (leaders : list leader) (crowded sparse : leader) (c s : nat),
    NoDup leaders -> In crowded leaders -> In sparse leaders -> more_crowded crowded sparse ->
    pairs_giving (length leaders) (choose_leader leaders) crowded c ->
    pairs_giving (length leaders) (choose_leader leaders) sparse s ->
    (chance s (length leaders) < chance c (length leaders))%Q.
Proof.
  intros leaders x y c s N Hx Hy M Hc Hs.
  apply (In_nth _ _ nobody) in Hx. destruct Hx as (p & Hp & Ep). apply (In_nth _ _ nobody) in Hy. destruct Hy as (q & Hq & Eq).
  assert (Hpq : p <> q) by (intros <-; rewrite Ep in Eq; subst y; exact (more_crowded_asym _ _ M M)).
  assert (H2 : 2 <= length leaders) by lia. subst x y. set (n := length leaders) in *.
  destruct (leader_count leaders p N H2 Hp) as (c1 & Hc1 & E1). destruct (leader_count leaders q N H2 Hq) as (c2 & Hc2 & E2).
  rewrite (pairs_giving_unique _ _ _ _ _ Hc Hc1), (pairs_giving_unique _ _ _ _ _ Hs Hc2).
  set (lt := fun i j => crowd_lt (l_crowd (nth i leaders nobody)) (l_crowd (nth j leaders nobody))) in *.
  assert (As : forall a b, lt a b = true -> lt b a = false).
  { intros a b E. destruct (lt b a) eqn:F; [|reflexivity]. apply crowd_lt_iff in E, F. exfalso. exact (more_crowded_asym _ _ E F). }
  assert (Tr : forall a b c, lt a b = true -> lt b c = true -> lt a c = true).
  { intros a b e E F. apply crowd_lt_iff in E, F. apply crowd_lt_iff. exact (more_crowded_trans _ _ _ E F). }
  destruct (more_below lt p q (seq 0 n) As Tr (seq_NoDup n 0)) as [M1 M2]; [apply in_seq; lia | apply crowd_lt_iff; exact M|].
  assert (C : c2 < c1) by (clear - E1 E2 M1 M2; subst lt n; cbv zeta beta in *; lia).
  unfold chance. apply Qlt_shift_div_l; [change 0%Q with (inject_Z 0); rewrite <- Zlt_Qlt; nia|].
  setoid_replace (inject_Z (Z.of_nat c2) / inject_Z (Z.of_nat (n * (n - 1))) * inject_Z (Z.of_nat (n * (n - 1))))%Q with (inject_Z (Z.of_nat c2)).
  - rewrite <- Zlt_Qlt. lia.
  - field. intros E. assert (X : (0 < inject_Z (Z.of_nat (n * (n - 1))))%Q) by (change 0%Q with (inject_Z 0); rewrite <- Zlt_Qlt; nia). lra.
Qed.
Print Assumptions C165_sparse_places_refuted.

(** Four leaders, one too many for an archive of three, as pruning leaves them. *)
Definition front : list leader := map (fun o => mk_leader o o (Some 0%Q)) [[0; 10]; [4; 6]; [5; 2]]%Z.
Definition pruned : list leader :=
  match leader_add 3 front (mk_leader [10; 0]%Z [10; 0]%Z (Some 0%Q)) with Some (l, _) => l | None => [] end.
(** The hypotheses are met there: the leader in the most crowded place is the result of four of the six tournaments, the
    one at the end of the front, whose distance is infinite, of none. *)
Example C165_example :
  NoDup pruned /\
  exists crowded between sparse, pruned = [crowded; between; sparse] /\ more_crowded crowded sparse /\
    number_in (fun y => more_crowded crowded y) pruned 2 /\ number_in (fun y => more_crowded y crowded) pruned 0 /\
    pairs_giving 3 (choose_leader pruned) crowded 4 /\ pairs_giving 3 (choose_leader pruned) sparse 0.
Proof.
  assert (ND : NoDup pruned) by (vm_compute; repeat constructor; cbn; intuition discriminate).
  split; [exact ND|].
  destruct pruned as [|a [|b [|c [|]]]] eqn:E; try (exfalso; vm_compute in E; discriminate).
  exists a, b, c. split; [reflexivity|]. vm_compute in E. injection E as <- <- <-.
  split; [exact I|].
  set (l := [_; _; _]) in *.
  set (a := mk_leader [5; 2]%Z [5; 2]%Z (Some (30 # 100))) in *.
  split; [apply (number_in_positions (fun y => crowd_lt (l_crowd a) (l_crowd y)) _ _ ND (fun y _ => crowd_lt_iff a y))|].
  split; [apply (number_in_positions (fun y => crowd_lt (l_crowd y) (l_crowd a)) _ _ ND (fun y _ => crowd_lt_iff y a))|].
  split; [exists [(0, 1); (1, 0); (0, 2); (2, 0)] | exists []]; (split; [repeat constructor; cbn; intuition discriminate|]; split; [|reflexivity]);
    intros i j; (split; [cbn [In]; intros H; repeat (destruct H as [H|H]; [injection H as <- <-; repeat split; try lia; vm_compute; reflexivity|]); destruct H|]);
    intros (Hi & Hj & D & H); destruct i as [|[|[|i]]], j as [|[|[|j]]]; try lia; vm_compute in H; try discriminate; cbn [In]; tauto.
Qed.
