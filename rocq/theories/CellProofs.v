(** Proofs about the printed table. *)
From Verif Require Import StatModel StatSpec StatTable SortProofs CellModel CellSpec Base.
Local Open Scope nat_scope.

(** ** Counters *)
Fixpoint value (c : counter) (a : string) : nat :=
  match c with [] => 0 | (n, k) :: c' => if String.eqb n a then k else value c' a end.
Definition occurrences (names : list string) (a : string) : nat := length (filter (String.eqb a) names).
Definition tidy_counter (c : counter) : Prop := NoDup (map fst c) /\ Forall (fun p => 1 <= snd p) c.

Lemma value_in c a k : NoDup (map fst c) -> In (a, k) c -> value c a = k.
Proof.
  induction c as [|[n j] c IH]; intros ND H; [destruct H|]. cbn in *. inversion ND as [|? ? N1 N2]; subst.
  destruct H as [H|H].
  - injection H as -> ->. rewrite String.eqb_refl. reflexivity.
  - destruct (String.eqb_spec n a) as [->|]; [|auto]. exfalso. apply N1. apply in_map_iff. exists (a, k). auto.
Qed.
Lemma value_pos c a : 1 <= value c a -> In (a, value c a) c.
Proof.
  induction c as [|[n j] c IH]; cbn; [lia|]. destruct (String.eqb_spec n a) as [->|]; intros H; [left; reflexivity|right; auto].
Qed.

Lemma count_one_spec c name : tidy_counter c -> tidy_counter (count_one c name) /\
  (forall a, value (count_one c name) a = value c a + (if String.eqb a name then 1 else 0)) /\
  (forall a, In a (map fst (count_one c name)) <-> In a (map fst c) \/ a = name).
Proof.
  induction c as [|[n k] c IH]; intros [ND P]; cbn [count_one].
  - split; [split; [repeat constructor; intros []|repeat constructor]|]. split.
    + intros a. cbn. rewrite (String.eqb_sym name a). destruct (String.eqb a name); reflexivity.
    + intros a. cbn. intuition.
  - cbn in ND. inversion ND as [|? ? N1 N2]; subst. inversion P as [|? ? P1 P2]; subst. cbn in P1.
    destruct (String.eqb_spec n name) as [->|Hn].
    + split; [split; [exact ND|constructor; [cbn; lia|exact P2]]|]. split.
      * intros a. cbn. rewrite (String.eqb_sym name a). destruct (String.eqb a name); lia.
      * intros a. cbn. intuition.
    + destruct (IH (conj N2 P2)) as ([I1 I2] & I3 & I4). split; [split|split].
      * cbn. constructor; [|exact I1]. rewrite I4. intros [H|H]; [contradiction|congruence].
      * constructor; [exact P1|exact I2].
      * intros a. cbn. destruct (String.eqb_spec n a) as [->|Ha]; [|apply I3].
        destruct (String.eqb_spec a name) as [->|]; [contradiction|lia].
      * intros a. cbn. rewrite I4. tauto.
Qed.

Lemma count_all_spec names : forall c, tidy_counter c -> tidy_counter (count_all c names) /\
  (forall a, value (count_all c names) a = value c a + occurrences names a).
Proof.
  induction names as [|n names IH]; intros c T; cbn.
  - split; [exact T|]. intros a. unfold occurrences. cbn. lia.
  - destruct (count_one_spec c n T) as (T1 & V1 & _). destruct (IH _ T1) as (T2 & V2). split; [exact T2|].
    intros a. unfold count_all in V2. rewrite V2, V1. unfold occurrences. cbn [filter].
    destruct (String.eqb a n); cbn [length]; lia.
Qed.

Lemma most_common_sorted c : StronglySorted (fun x y => snd y <= snd x) (most_common c).
Proof.
  unfold most_common. assert (S : StronglySorted (fun x y => (snd y <=? snd x) = true) (stable_sort (fun a b : string * nat => snd b <=? snd a) c)).
  { apply (stable_sort_sorted _ (fun _ => True)).
    - intros x y _ _ H. apply Nat.leb_gt in H. apply Nat.leb_le. lia.
    - intros x y z _ _ _ H1 H2. apply Nat.leb_le in H1, H2. apply Nat.leb_le. lia.
    - apply Forall_forall. auto. }
  revert S. generalize (stable_sort (fun a b : string * nat => snd b <=? snd a) c). induction 1 as [|x l S IH F]; constructor; [exact IH|].
  eapply Forall_impl; [|exact F]. intros y H. apply Nat.leb_le. exact H.
Qed.

Lemma ranking_line_ok c : tidy_counter c -> ranking_line (value c) (most_common c).
Proof.
  intros [ND P]. assert (PM : Permutation (most_common c) c) by apply stable_sort_perm. split; [|split].
  - eapply Permutation_NoDup; [apply Permutation_map, Permutation_sym, PM|exact ND].
  - intros a k. split.
    + intros H. eapply Permutation_in in H; [|exact PM]. split; [apply value_in; assumption|].
      rewrite Forall_forall in P. apply (P (a, k) H).
    + intros [<- H]. eapply Permutation_in; [apply Permutation_sym, PM|]. apply value_pos, H.
  - apply most_common_sorted.
Qed.

(** ** Cells *)
Lemma cell_ok c : tidy_counter c -> table_cell (value c) (cell c).
Proof.
  intros T. destruct (ranking_line_ok c T) as (LN & LI & LS). pose proof T as [ND P].
  assert (PM : Permutation (most_common c) c) by apply stable_sort_perm.
  assert (Names : forall a, In a (map fst c) <-> 1 <= value c a).
  { intros a. split.
    - intros H. apply in_map_iff in H. destruct H as ([n k] & <- & Hq). cbn. rewrite (value_in c n k ND Hq).
      rewrite Forall_forall in P. apply (P (n, k) Hq).
    - intros H. apply value_pos in H. apply in_map_iff. eexists. split; [|exact H]. reflexivity. }
  (* how many others share the points of a listed entry *)
  assert (Count : forall k, 1 <= k -> length (filter (Nat.eqb k) (map snd c)) = length (filter (fun p => Nat.eqb k (snd p)) (most_common c))).
  { intros k _. rewrite (Permutation_length (filter_perm (fun p => Nat.eqb k (snd p)) _ _ PM)).
    clear. induction c as [|p c IH]; [reflexivity|]. cbn. destruct (k =? snd p); cbn; congruence. }
  unfold cell. destruct (most_common c) as [|[a k] l] eqn:E; cbn [firstn].
  - (* nobody *)
    split; [constructor|]. split; [intros ? ? ? []|]. split; [constructor|]. split; [intros ? ? []|]. split; [cbn; lia|].
    split; [|intros ? ? ? []]. intros _ x _. destruct (value c x) eqn:Ex; [reflexivity|]. exfalso.
    apply (LI x (S n)). rewrite Ex. split; [reflexivity|lia].
  - assert (Ia : value c a = k /\ 1 <= k) by (apply LI; left; reflexivity).
    destruct l as [|[b j] l].
    + (* one *)
      assert (Only : forall x, x <> a -> value c x = 0).
      { intros x Hx. destruct (value c x) eqn:Ex; [reflexivity|]. exfalso.
        assert (Hi : In (x, S n) [(a, k)]) by (apply LI; rewrite Ex; split; [reflexivity|lia]). destruct Hi as [Hi|[]]. congruence. }
      unfold table_cell, format_result. cbn [map fst snd].
      split; [repeat constructor; intros []|]. split; [intros ? ? ? [H|[]]; injection H as <- <- _; exact Ia|].
      split; [repeat constructor|]. split.
      { intros x e [<-|[]] Hx. cbn. rewrite Only; [lia|]. intros ->. apply Hx. left. reflexivity. }
      split; [cbn; lia|]. split.
      { intros _ x Hx. apply Only. intros ->. apply Hx. left. reflexivity. }
      intros x kx bx [H|[]]. injection H as <- <- <-. rewrite Nat.ltb_lt, Count by apply Ia. cbn [filter snd]. rewrite Nat.eqb_refl. cbn.
      split; [lia|]. intros (o & Ho & Eo). exfalso. rewrite Only in Eo; [lia|]. intros ->. apply Ho. left. reflexivity.
    + (* two or more *)
      assert (Ib : value c b = j /\ 1 <= j) by (apply LI; right; left; reflexivity).
      inversion LS as [|? ? LS1 F1]; subst. inversion LS1 as [|? ? LS2 F2]; subst.
      assert (Hjk : j <= k) by (inversion F1; assumption).
      cbn in LN. inversion LN as [|? ? Na Nl]; subst. inversion Nl as [|? ? Nb Nl']; subst.
      assert (Hab : a <> b) by (intros ->; apply Na; left; reflexivity).
      assert (Rest : forall x, x <> a -> x <> b -> value c x <= j).
      { intros x Hxa Hxb. destruct (value c x) eqn:Ex; [lia|].
        assert (Hi : In (x, S n) ((a, k) :: (b, j) :: l)) by (apply LI; rewrite Ex; split; [reflexivity|lia]).
        destruct Hi as [Hi|[Hi|Hi]]; try congruence. rewrite Forall_forall in F2. apply (F2 _ Hi). }
      assert (Tie : forall v, 1 <= v -> (0 < length (filter (fun p => Nat.eqb v (snd p)) l) <->
                exists o, o <> a /\ o <> b /\ value c o = v)).
      { intros v Hv. split.
        - intros H. destruct (filter _ l) as [|[o w] r] eqn:Ef; [cbn in H; lia|].
          assert (Ho : In (o, w) (filter (fun p => Nat.eqb v (snd p)) l)) by (rewrite Ef; left; reflexivity).
          apply filter_In in Ho. destruct Ho as [Ho Ew]. apply Nat.eqb_eq in Ew. cbn in Ew. subst w.
          exists o. assert (In o (map fst l)) by (apply in_map_iff; exists (o, v); auto).
          split; [intros ->; apply Na; right; assumption|]. split; [intros ->; apply Nb; assumption|].
          apply LI. right. right. exact Ho.
        - intros (o & Hoa & Hob & Eo). assert (Ho : In (o, v) ((a, k) :: (b, j) :: l)) by (apply LI; auto).
          destruct Ho as [Ho|[Ho|Ho]]; try congruence.
          assert (Hf : In (o, v) (filter (fun p => Nat.eqb v (snd p)) l)) by (apply filter_In; split; [exact Ho|apply Nat.eqb_refl]).
          destruct (filter (fun p => v =? snd p) l); [destruct Hf|cbn; lia]. }
      unfold table_cell, format_result. cbn [map fst snd].
      assert (Hsh : forall o, ~ (a = o \/ b = o \/ False) <-> o <> a /\ o <> b) by (intros o; split; [intros H; split; intros ->; tauto|intros [H1 H2] [H|[H|[]]]; congruence]).
      split; [constructor; [intros [H|[]]; congruence|repeat constructor; intros []]|].
      split; [intros ? ? ? [H|[H|[]]]; injection H as <- <- _; assumption|].
      split; [constructor; [repeat constructor|constructor; [cbn; exact Hjk|constructor]]|].
      split.
      { intros x e He Hx. apply Hsh in Hx. destruct Hx as [H1 H2]. specialize (Rest x H1 H2). destruct He as [<-|[<-|[]]]; cbn; lia. }
      split; [cbn; lia|]. split; [cbn; lia|].
      intros x kx bx [H|[H|[]]]; injection H as <- <- <-; rewrite Nat.ltb_lt, Count by tauto; cbn [filter snd].
      * rewrite Nat.eqb_refl. destruct (Nat.eqb_spec k j) as [Ekj|Ekj]; cbn [length].
        -- transitivity (0 < length (filter (fun p => Nat.eqb k (snd p)) l)); [lia|]. rewrite Tie by tauto.
           split; intros (o & Ho); exists o; [split; [apply Hsh; tauto|tauto]|destruct Ho as [Ho Eo]; apply Hsh in Ho; tauto].
        -- split.
           ++ intros H. exfalso. assert (X : 0 < length (filter (fun p => Nat.eqb k (snd p)) l)) by lia.
              apply (Tie k (proj2 Ia)) in X. destruct X as (o & H1 & H2 & H3). specialize (Rest o H1 H2). lia.
           ++ intros (o & Ho & Eo). apply Hsh in Ho. destruct Ho as [H1 H2]. specialize (Rest o H1 H2). lia.
      * rewrite Nat.eqb_refl. destruct (Nat.eqb_spec k j) as [Ekj|Ekj]; [rewrite (proj2 (Nat.eqb_eq j k)) by congruence|
          rewrite (proj2 (Nat.eqb_neq j k)) by congruence]; cbn [length].
        -- transitivity (0 < length (filter (fun p => Nat.eqb j (snd p)) l)); [lia|]. rewrite Tie by tauto.
           split; intros (o & Ho); exists o; [split; [apply Hsh; tauto|tauto]|destruct Ho as [Ho Eo]; apply Hsh in Ho; tauto].
        -- transitivity (0 < length (filter (fun p => Nat.eqb j (snd p)) l)); [lia|]. rewrite Tie by tauto.
           split; intros (o & Ho); exists o; [split; [apply Hsh; tauto|tauto]|destruct Ho as [Ho Eo]; apply Hsh in Ho; tauto].
Qed.

Lemma table_ok metric larger tol scorings : ranked metric larger tol ->
  Forall (fun s => s <> [] /\ NoDup (map fst s) /\ forall a x, In (a, x) s -> (0 <= x)%Q) scorings ->
  exists c, award_problems metric larger scorings [] = Some c /\
    exists pts, (forall a, total_points larger tol a scorings (pts a)) /\
      ranking_line pts (most_common c) /\ table_cell pts (cell c).
Proof.
  intros R F.
  assert (G : forall c, tidy_counter c -> exists c' pts, award_problems metric larger scorings c = Some c' /\ tidy_counter c' /\
            (forall a, total_points larger tol a scorings (pts a)) /\ (forall a, value c' a = value c a + pts a)).
  { induction F as [|s rest (N & ND & Pos) F IH]; intros c T; cbn [award_problems].
    - exists c, (fun _ => 0). split; [reflexivity|]. split; [exact T|]. split; [constructor|]. intros a. lia.
    - destruct (award_points metric larger tol s R N ND Pos) as (names & -> & Pn).
      destruct (count_all_spec names c T) as (T1 & V1). destruct (IH _ T1) as (c' & pts & E & T' & TP & V).
      exists c', (fun a => occurrences names a + pts a). split; [exact E|]. split; [exact T'|]. split.
      + intros a. constructor; [|apply TP]. apply Pn.
      + intros a. rewrite V, V1. lia. }
  destruct (G []) as (c & pts & E & T & TP & V); [split; constructor|].
  exists c. split; [exact E|]. exists pts. split; [exact TP|].
  assert (X : forall a, value c a = pts a) by (intros a; rewrite V; reflexivity).
  split.
  - destruct (ranking_line_ok c T) as (A & B & C). split; [exact A|]. split; [|exact C]. intros a k. rewrite <- X. apply B.
  - destruct (cell_ok c T) as (A & B & C & D & L & O & S). split; [exact A|]. split; [intros a k b; rewrite <- X; apply B|].
    split; [exact C|]. split; [intros a e; rewrite <- X; apply D|]. split; [exact L|].
    split; [intros H a; rewrite <- X; apply O; exact H|]. intros a k b H. rewrite (S a k b H).
    split; intros (o & H1 & H2); exists o; rewrite X in *; auto.
Qed.
