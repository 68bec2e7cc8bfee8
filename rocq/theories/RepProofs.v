(** Proofs for C146 and C147. *)
Require Import String List ZArith QArith Bool Lia Permutation Sorted.
From Verif Require Import PyStr PyStrFacts RepModel RepSpec.
Import ListNotations.
Open Scope Z_scope.
Open Scope list_scope.

Lemma niceness_from : forall inc jobs level k x, 0 <= inc -> 0 <= level <= 19 ->
  nth_error (niceness level (Some inc) jobs) k = Some x ->
  x = Z.min 19 (level + inc * (Z.of_nat k + 1)).
Proof.
  intros inc. induction jobs as [|jobs IH]; intros level k x Hi Hl H; [destruct k; discriminate|].
  cbn [niceness] in H. destruct k as [|k]; cbn [nth_error] in H.
  - injection H as <-. unfold nice. lia.
  - apply IH in H; [|exact Hi|unfold nice; lia]. subst x. unfold nice. nia.
Qed.

Lemma niceness_none : forall jobs level x, In x (niceness level None jobs) -> x = level.
Proof.
  induction jobs as [|jobs IH]; intros level x H; cbn [niceness] in H; [contradiction|].
  destruct H as [<-|H]; [reflexivity|now apply IH].
Qed.

Lemma printed_ok : forall t, 0 <= t -> (reads_as (printed_time t) t <-> t mod 86400 < 3600).
Proof.
  intros t Ht. unfold printed_time, reads_as.
  pose proof (Z.div_mod t 86400 ltac:(lia)). pose proof (Z.mod_pos_bound t 86400 ltac:(lia)).
  set (d := t / 86400) in *. set (s := t mod 86400) in *.
  pose proof (Z.div_mod s 3600 ltac:(lia)). pose proof (Z.mod_pos_bound s 3600 ltac:(lia)).
  pose proof (Z.div_mod s 60 ltac:(lia)). pose proof (Z.mod_pos_bound s 60 ltac:(lia)).
  split.
  - intros (A & B & C). lia.
  - intro Hs. assert (s / 3600 = 0) by (apply Z.div_small; lia). lia.
Qed.

Lemma config_eqb : forall c d : string * string,
  (String.eqb (fst c) (fst d) && String.eqb (snd c) (snd d))%bool = true <-> c = d.
Proof.
  intros [a b] [a' b']; cbn. rewrite andb_true_iff, !String.eqb_eq. split; [intros [-> ->]; reflexivity|].
  intro H; inversion H; auto.
Qed.

Lemma sum_app : forall a b, (sum (a ++ b) == sum a + sum b)%Q.
Proof.
  induction a as [|x a IH]; intro b; cbn [sum fold_right app]; [unfold sum; cbn; ring|].
  change (fold_right Qplus 0 (a ++ b))%Q with (sum (a ++ b)). rewrite IH. unfold sum. ring.
Qed.

Lemma add_time_keys : forall c t table d,
  In d (map fst (add_time c t table)) <-> d = c \/ In d (map fst table).
Proof.
  intros c t. induction table as [|[e u] table IH]; intro d; cbn [add_time map fst In].
  - intuition congruence.
  - destruct (_ && _)%bool eqn:E.
    + apply config_eqb in E. subst e. cbn [map fst In]. intuition congruence.
    + cbn [map fst In]. rewrite IH. tauto.
Qed.

Lemma add_time_nodup : forall c t table, NoDup (map fst table) -> NoDup (map fst (add_time c t table)).
Proof.
  intros c t. induction table as [|[e u] table IH]; intro H; cbn [add_time map fst].
  - repeat constructor. intros [].
  - cbn [map fst] in H. inversion H as [|? ? N D]; subst. destruct (_ && _)%bool eqn:E; [exact H|].
    cbn [map fst]. constructor; [|now apply IH]. rewrite add_time_keys. intros [->|I]; [|contradiction].
    assert (X : c = c) by reflexivity. apply config_eqb in X. congruence.
Qed.

(** What the table holds after [runs]. *)
Definition holds (table runs : list (string * string * Q)) : Prop :=
  NoDup (map fst table) /\
  (forall d, In d (map fst table) <-> In d (map fst runs)) /\
  (forall d u, In (d, u) table -> (u == sum (times_of d runs))%Q).

Lemma times_of_app : forall d a b, times_of d (a ++ b) = times_of d a ++ times_of d b.
Proof. intros. unfold times_of. now rewrite filter_app, map_app. Qed.

Lemma times_of_none : forall d runs, ~ In d (map fst runs) -> times_of d runs = [].
Proof.
  intros d. induction runs as [|[e t] runs IH]; intro H; [reflexivity|]. unfold times_of in *. cbn [filter fst].
  cbn [map fst In] in H. destruct (same_config d e) as [->|_]; [tauto|]. apply IH. tauto.
Qed.

Lemma add_time_in : forall c t table d u, NoDup (map fst table) -> In (d, u) (add_time c t table) ->
  (d <> c /\ In (d, u) table) \/
  (d = c /\ ((~ In c (map fst table) /\ u = t) \/ exists v, In (c, v) table /\ (u == v + t)%Q)).
Proof.
  intros c t. induction table as [|[e v] table IH]; intros d u N H; cbn [add_time] in H.
  - destruct H as [H|[]]. inversion H; subst. right. split; [reflexivity|]. left. split; [intros []|reflexivity].
  - cbn [map fst] in N. inversion N as [|? ? N1 N2]; subst. destruct (_ && _)%bool eqn:E.
    + apply config_eqb in E. subst e. destruct H as [H|H].
      * assert (d = c) by congruence. assert (Qred (v + t) = u) by congruence. subst d u. right. split; [reflexivity|].
        right. exists v. split; [now left|]. apply Qred_correct.
      * left. split; [|now right]. intros ->. apply N1. apply in_map_iff. now exists (c, u).
    + assert (Ne : e <> c) by (intros ->; assert (X : c = c) by reflexivity; apply config_eqb in X; congruence).
      destruct H as [H|H].
      * inversion H; subst. left. split; [exact Ne|now left].
      * destruct (IH d u N2 H) as [[A B]|[A [[B C]|(w & B & C)]]].
        -- left. split; [exact A|now right].
        -- right. split; [exact A|]. left. split; [|exact C]. cbn. intros [X|X]; [now apply Ne|now apply B].
        -- right. split; [exact A|]. right. exists w. split; [now right|exact C].
Qed.

Lemma holds_step : forall table runs r, holds table runs -> holds (add_time (fst r) (snd r) table) (runs ++ [r]).
Proof.
  intros table runs [c t] (A & B & C). cbn [fst snd]. split; [now apply add_time_nodup|]. split.
  - intro d. rewrite add_time_keys, map_app, in_app_iff, B. cbn. intuition congruence.
  - intros d u H. rewrite times_of_app, sum_app.
    destruct (add_time_in c t table d u A H) as [[Ne I]|[-> [[N ->]|(v & I & Q)]]].
    + rewrite <- (C d u I). unfold times_of. cbn [filter fst]. destruct (same_config d c); [contradiction|]. cbn. ring.
    + rewrite times_of_none by (intro X; apply N; now apply B). unfold times_of. cbn [filter fst].
      destruct (same_config c c); [|congruence]. cbn [map snd sum fold_right]. ring.
    + rewrite Q, (C c v I). unfold times_of at 3. cbn [filter fst]. destruct (same_config c c); [|congruence]. cbn [map snd sum fold_right]. ring.
Qed.

Lemma holds_all : forall runs seen table, holds table seen ->
  holds (fold_left (fun table r => add_time (fst r) (snd r) table) runs table) (seen ++ runs).
Proof.
  induction runs as [|r runs IH]; intros seen table H; cbn [fold_left]; [now rewrite app_nil_r|].
  replace (seen ++ r :: runs) with ((seen ++ [r]) ++ runs) by now rewrite <- app_assoc.
  apply IH. now apply holds_step.
Qed.

Lemma longer_total : forall x y, longer_first x y = true \/ longer_first y x = true.
Proof.
  intros x y. unfold longer_first. rewrite !Qle_bool_iff. destruct (Qlt_le_dec (snd x) (snd y)) as [H|H]; [|auto].
  right. now apply Qlt_le_weak.
Qed.

Lemma longer_trans : forall x y z, longer_first x y = true -> longer_first y z = true -> longer_first x z = true.
Proof. intros x y z. unfold longer_first. rewrite !Qle_bool_iff. intros. eapply Qle_trans; eassumption. Qed.

Lemma inv_nonneg : forall n, (0 <= / inject_Z (Z.pos n))%Q.
Proof. intro n. apply Qinv_le_0_compat. unfold Qle, inject_Z. cbn. lia. Qed.

Lemma running_times_ok : forall n runs, let table := running_times n runs in
  NoDup (map fst table) /\
  (forall c, In c (map fst table) <-> In c (map fst runs)) /\
  (forall c m, In (c, m) table -> (m == sum (times_of c runs) / inject_Z (Z.pos n))%Q) /\
  StronglySorted (fun a b => (snd b <= snd a)%Q) table.
Proof.
  intros n runs. cbv zeta. unfold running_times.
  assert (H0 : holds [] []) by (split; [constructor|split; [cbn; tauto|intros d u []]]).
  pose proof (holds_all runs [] [] H0) as (A & B & C). cbn [app] in *.
  set (table := fold_left _ runs []) in *.
  pose proof (sort_by_perm longer_first table) as P.
  assert (K : map fst (map (fun e : string * string * Q => (fst e, (snd e / inject_Z (Z.pos n))%Q)) (sort_by longer_first table))
    = map fst (sort_by longer_first table)) by (rewrite map_map; apply map_ext; reflexivity).
  split; [|split; [|split]].
  - rewrite K. eapply Permutation_NoDup; [apply Permutation_map, P|exact A].
  - intro c. rewrite K, <- B. split; intro I; (eapply Permutation_in; [|exact I]);
      [apply Permutation_sym|]; apply Permutation_map, P.
  - intros c m I. apply in_map_iff in I. destruct I as ([d u] & Q & I). cbn in Q. inversion Q; subst.
    apply (proj1 (sort_by_in longer_first table (c, u))) in I. now rewrite (C c u I).
  - pose proof (sort_by_sorted longer_first longer_total longer_trans table) as S. clear K P.
    induction S as [|x l S IH F]; cbn [map]; [constructor|]. constructor; [exact IH|].
    apply Forall_forall. intros y I. apply in_map_iff in I. destruct I as (z & <- & I). cbn [snd].
    rewrite Forall_forall in F. specialize (F z I). unfold le_by, longer_first in F. apply Qle_bool_iff in F.
    unfold Qdiv. apply Qmult_le_compat_r; [exact F|apply inv_nonneg].
Qed.
