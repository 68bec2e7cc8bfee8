(** The crowding values of the OMOPSO leaders. *)
From Verif Require Import Spec Base OmopsoSpec DomModel SortModel SortProofs VarModel NsgaModel SpeaModel OmopsoModel OmopsoProofs.
From Coq Require Import QArith Sorted Permutation.
Local Open Scope nat_scope.

Definition bumped (i : nat) (span : Z) (prev x : leader) : option Q :=
  if (0 <? span)%Z then match l_crowd x with Some c => Some (c + inject_Z (objective i x - objective i prev) / inject_Z span)%Q | None => None end
  else None.

Lemma crowd_rest_nth i span : forall rest prev j x, nth_error rest j = Some x ->
  exists p, nth_error (prev :: rest) j = Some p /\
    nth_error (crowd_rest i span prev rest) j = Some (set_crowd (if S j =? length rest then None else bumped i span p x) x).
Proof.
  induction rest as [|l rest IH]; intros prev j x H; [destruct j; discriminate|].
  destruct j as [|j].
  - injection H as <-. exists prev. split; [reflexivity|]. cbn [crowd_rest]. destruct rest as [|l2 rest]; reflexivity.
  - cbn in H. destruct (IH l j x H) as (p & Hp & E). exists p. split; [exact Hp|]. cbn [crowd_rest].
    destruct rest as [|l2 rest]; [destruct j; discriminate|]. exact E.
Qed.

Lemma last_default {A} (r : list A) : forall c a b, last (c :: r) a = last (c :: r) b.
Proof. induction r as [|d r IH]; intros c a b; [reflexivity|]. exact (IH d a b). Qed.
Lemma nth_last {A} (r : list A) : forall a, nth_error (a :: r) (length r) = Some (last r a).
Proof.
  induction r as [|b r IH]; intros a; [reflexivity|]. cbn [length nth_error]. specialize (IH b). cbn [nth_error] in IH. rewrite IH.
  f_equal. destruct r as [|c r]; [reflexivity|]. change (last (b :: c :: r) a) with (last (c :: r) a). apply last_default.
Qed.

(** One pass, position by position of the sorted list. *)
Lemma crowd_objective_nth i l s j x : stable_sort (fun a b => (objective i a <=? objective i b)%Z) l = s -> nth_error s j = Some x ->
  exists first fin, nth_error s 0 = Some first /\ nth_error s (length s - 1) = Some fin /\
    ((j = 0 \/ S j = length s) /\ nth_error (crowd_objective l i) j = Some (set_crowd None x) \/
     (0 < j /\ S j < length s) /\ exists p, nth_error s (j - 1) = Some p /\
       nth_error (crowd_objective l i) j = Some (set_crowd (bumped i (objective i fin - objective i first) p x) x)).
Proof.
  intros Es Hj. unfold crowd_objective. rewrite Es. destruct s as [|a r]; [destruct j; discriminate|].
  assert (Hf : nth_error (a :: r) (length (a :: r) - 1) = Some (last r a)).
  { cbn [length]. rewrite Nat.sub_succ, Nat.sub_0_r. apply nth_last. }
  exists a, (last r a). split; [reflexivity|]. split; [exact Hf|].
  destruct j as [|j].
  - left. split; [now left|]. injection Hj as <-. reflexivity.
  - cbn in Hj. destruct (crowd_rest_nth i (objective i (last r a) - objective i a) r a j x Hj) as (p & Hp & E).
    cbn [nth_error]. rewrite E. assert (Lj : j < length r) by (apply nth_error_Some; congruence).
    destruct (Nat.eqb_spec (S j) (length r)).
    + left. split; [right; cbn; lia|]. reflexivity.
    + right. split; [cbn; lia|]. exists p. cbn [Nat.sub]. rewrite Nat.sub_0_r. auto.
Qed.

Lemma crowd_objective_length i l : length (crowd_objective l i) = length l.
Proof. rewrite <- (map_length core), <- (map_length core l). apply Permutation_length, crowd_objective_core. Qed.

Lemma core_objs x y : core x = core y -> l_objs x = l_objs y.
Proof. intros H. now injection H. Qed.

(** One pass, by points. *)
Lemma crowd_pass i k (l : list leader) (pts : list vec) : k = i -> (forall v, In v pts <-> In v (map l_objs l)) ->
  NoDup (map (objective i) l) -> (forall x, In x l -> crowding_value k pts (l_objs x) (l_crowd x)) ->
  forall x, In x (crowd_objective l i) -> crowding_value (S k) pts (l_objs x) (l_crowd x).
Proof.
  intros -> Hpts ND H x' Hx'.
  set (s := stable_sort (fun a b => (objective i a <=? objective i b)%Z) l).
  assert (P : Permutation s l) by apply stable_sort_perm.
  assert (Ls : length s = length l) by now apply Permutation_length.
  apply In_nth_error in Hx'. destruct Hx' as (j & Hj).
  assert (Lj : j < length s) by (rewrite Ls, <- (crowd_objective_length i); apply nth_error_Some; congruence).
  destruct (nth_error s j) as [x|] eqn:Ex; [|apply nth_error_None in Ex; lia].
  assert (SS : forall a b u w, a < b -> nth_error s a = Some u -> nth_error s b = Some w -> (objective i u < objective i w)%Z).
  { intros a b u w Hab Hu Hw.
    assert (S1 : StronglySorted (fun u w => (objective i u <=? objective i w)%Z = true) s).
    { apply (stable_sort_sorted _ (fun _ => True)).
      - intros u' w' _ _ Z. apply Z.leb_gt in Z. apply Z.leb_le. lia.
      - intros u' w' z' _ _ _ Z1 Z2. apply Z.leb_le in Z1. apply Z.leb_le in Z2. apply Z.leb_le. lia.
      - apply Forall_forall. auto. }
    pose proof (StronglySorted_nth _ _ S1 a b u w Hab Hu Hw) as L. apply Z.leb_le in L.
    assert (N : objective i u <> objective i w).
    { intros E. assert (NDs : NoDup (map (objective i) s)) by (eapply Permutation_NoDup; [apply Permutation_map, Permutation_sym, P|exact ND]).
      rewrite NoDup_nth_error in NDs. specialize (NDs a b). rewrite map_length in NDs.
      assert (a = b); [|lia]. apply NDs; [apply nth_error_Some; congruence|].
      rewrite !nth_error_map, Hu, Hw. cbn. now f_equal. }
    lia. }
  assert (Inv : forall w, In w pts -> exists y b, nth_error s b = Some y /\ l_objs y = w).
  { intros w Hw. apply Hpts in Hw. apply in_map_iff in Hw. destruct Hw as (y & <- & Hy).
    apply (Permutation_in _ (Permutation_sym P)) in Hy. apply In_nth_error in Hy. destruct Hy as (b & Hb). eauto. }
  assert (Inp : forall b y, nth_error s b = Some y -> In (l_objs y) pts).
  { intros b y Hb. apply Hpts, in_map. apply (Permutation_in _ P). eapply nth_error_In; eauto. }
  assert (Hx : In x l) by (apply (Permutation_in _ P); eapply nth_error_In; eauto).
  specialize (H x Hx).
  destruct (crowd_objective_nth i l s j x eq_refl Ex) as (first & fin & E0 & Ef & [(Hend & E)|((Hj0 & Hj1) & p & Ep & E)]).
  - (* an end of the list *)
    rewrite E in Hj. injection Hj as <-. cbn [set_crowd l_objs l_crowd]. left. split; [|reflexivity]. exists i. split; [lia|].
    destruct Hend as [->|Hend].
    + left. intros w Hw. destruct (Inv w Hw) as (y & b & Hb & <-). destruct b as [|b]; [rewrite Hb in Ex; injection Ex as <-; lia|].
      pose proof (SS 0 (S b) x y ltac:(lia) Ex Hb). unfold objective, coord in *. lia.
    + right. intros w Hw. destruct (Inv w Hw) as (y & b & Hb & <-). assert (Lb : b < length s) by (apply nth_error_Some; congruence).
      destruct (Nat.eq_dec b j) as [->|Nb]; [rewrite Hb in Ex; injection Ex as <-; lia|].
      pose proof (SS b j y x ltac:(lia) Hb Ex). unfold objective, coord in *. lia.
  - rewrite E in Hj. injection Hj as <-. cbn [set_crowd l_objs l_crowd].
    assert (B1 : (objective i first < objective i x)%Z) by (eapply (SS 0 j); eauto).
    assert (B2 : (objective i x < objective i fin)%Z) by (eapply (SS j (length s - 1)); eauto; lia).
    assert (NE : ~ extreme i pts (l_objs x)).
    { intros [Hm|Hm]; [specialize (Hm (l_objs first) (Inp _ _ E0))|specialize (Hm (l_objs fin) (Inp _ _ Ef))]; unfold objective, coord in *; lia. }
    unfold bumped. destruct (Z.ltb_spec 0 (objective i fin - objective i first)); [|lia].
    assert (G : gap i pts (l_objs x) (inject_Z (objective i x - objective i p) / inject_Z (objective i fin - objective i first))).
    { exists (l_objs p), (l_objs first), (l_objs fin). split; [eapply Inp; eauto|]. split; [eapply Inp; eauto|]. split; [eapply Inp; eauto|].
      split; [apply (SS (j - 1) j p x); auto; lia|]. split; [|split; [|reflexivity]].
      - intros w Hw Hlt. destruct (Inv w Hw) as (y & b & Hb & <-).
        assert (b < j). { destruct (Nat.lt_trichotomy b j) as [L|[->|L]]; [exact L| |].
          - rewrite Hb in Ex. injection Ex as <-. lia.
          - pose proof (SS j b x y L Ex Hb). unfold objective, coord in *. lia. }
        destruct (Nat.eq_dec b (j - 1)) as [->|Nb]; [rewrite Hb in Ep; injection Ep as <-; lia|].
        pose proof (SS b (j - 1) y p ltac:(lia) Hb Ep). unfold objective, coord in *. lia.
      - intros w Hw. destruct (Inv w Hw) as (y & b & Hb & <-). assert (Lb : b < length s) by (apply nth_error_Some; congruence). split.
        + destruct b as [|b]; [rewrite Hb in E0; injection E0 as <-; lia|]. pose proof (SS 0 (S b) first y ltac:(lia) E0 Hb). unfold objective, coord in *. lia.
        + destruct (Nat.eq_dec b (length s - 1)) as [->|Nb]; [rewrite Hb in Ef; injection Ef as <-; lia|].
          pose proof (SS b (length s - 1) y fin ltac:(lia) Hb Ef). unfold objective, coord in *. lia. }
    destruct H as [((m & Hm & Em) & ->)|(Hno & gs & q & Lg & Hg & -> & Eq)].
    + left. split; [exists m; split; [lia|exact Em]|reflexivity].
    + right. split.
      * intros m Hm. destruct (Nat.eq_dec m i) as [->|Nm]; [exact NE|apply Hno; lia].
      * eexists (gs ++ [_]), _. split; [rewrite app_length; cbn; lia|]. split; [|split; [reflexivity|]].
        -- intros m g Hmg. destruct (Nat.lt_ge_cases m (length gs)) as [L|L].
           ++ rewrite nth_error_app1 in Hmg by exact L. now apply Hg.
           ++ rewrite nth_error_app2 in Hmg by exact L. destruct (m - length gs) as [|m'] eqn:Em; [|destruct m'; discriminate].
              injection Hmg as <-. replace m with i by lia. exact G.
        -- rewrite fold_right_app. cbn [fold_right]. rewrite Eq. clear. induction gs as [|g gs IH]; cbn [fold_right]; [ring|].
           rewrite <- IH. ring.
Qed.

Lemma crowding_values d (l : list leader) : l <> [] -> all_dim d l_objs l -> (forall i, i < d -> NoDup (map (objective i) l)) ->
  exists r, crowding l = Some r /\ Permutation (map core r) (map core l) /\
    forall x, In x r -> crowding_value d (map l_objs l) (l_objs x) (l_crowd x).
Proof.
  intros NE HD ND. destruct (crowding_ok d l NE HD) as (r & E & HP & _). exists r. split; [exact E|]. split; [exact HP|].
  unfold crowding in E. destruct l as [|first rest] eqn:El; [contradiction|]. rewrite <- El in *.
  destruct (existsb _ l); [discriminate|]. injection E as <-.
  replace (length (l_objs first)) with d by (symmetry; apply HD; rewrite El; now left).
  assert (G : forall m k A, k + m = d -> Permutation (map core A) (map core l) ->
    (forall x, In x A -> crowding_value k (map l_objs l) (l_objs x) (l_crowd x)) ->
    forall x, In x (fold_left crowd_objective (seq k m) A) -> crowding_value d (map l_objs l) (l_objs x) (l_crowd x)).
  { induction m as [|m IH]; intros k A Hk PA HA x Hx.
    - replace d with k by lia. now apply HA.
    - cbn [seq fold_left] in Hx. apply (IH (S k) (crowd_objective A k)); [lia| | |exact Hx].
      + eapply Permutation_trans; [apply crowd_objective_core|exact PA].
      + apply crowd_pass; auto.
        * assert (PO : Permutation (map l_objs A) (map l_objs l)).
          { apply (Permutation_map snd) in PA. rewrite !map_map in PA. exact PA. }
          intros v. split; intros Hv; [now apply (Permutation_in _ (Permutation_sym PO))|now apply (Permutation_in _ PO)].
        * apply (Permutation_NoDup (l := map (objective k) l)); [|apply ND; lia].
          apply Permutation_sym. apply (Permutation_map (fun c => nth k (snd c) 0%Z)) in PA. rewrite !map_map in PA. exact PA. }
  apply (G d 0); [lia| |].
  - rewrite map_map. apply Permutation_refl.
  - intros x Hx. apply in_map_iff in Hx. destruct Hx as (y & <- & _). right. split; [lia|].
    exists [], 0%Q. cbn. split; [reflexivity|]. split; [intros [|i] g; discriminate|]. split; [reflexivity|]. reflexivity.
Qed.
