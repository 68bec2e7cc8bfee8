(** C164: which individuals emigrate. *)
From Verif Require Import Spec DomModel DomProofs ImgaModel ImgaProofs EmigSpec.
From Coq Require Import QArith Lqa.
Local Open Scope nat_scope.

Lemma qsum_harmonic n : (qsum (map (fun i => (1 / inject_Z (Z.of_nat (i + 1)))%Q) (seq 0 n)) == harmonic n)%Q.
Proof.
  induction n as [|n IH]; [reflexivity|]. rewrite seq_S, map_app, qsum_app, IH. cbn [harmonic map qsum fold_right Nat.add].
  replace (S n) with (n + 1) by lia. ring.
Qed.
Lemma firstn_seq' n : forall i a, i <= n -> firstn i (seq a n) = seq a i.
Proof. induction n as [|n IH]; intros [|i] a H; cbn; try reflexivity; [lia|]. now rewrite IH by lia. Qed.
Lemma combine_firstn' {A B} : forall (l : list A) (l' : list B) i, firstn i (combine l l') = combine (firstn i l) (firstn i l').
Proof. induction l as [|a l IH]; intros [|b l'] [|i]; cbn; try reflexivity; now rewrite IH. Qed.
Lemma concat_skipn_in {A} (L : list (list A)) : forall i x, In x (concat (skipn i L)) <-> exists q l, i <= q /\ nth_error L q = Some l /\ In x l.
Proof.
  induction L as [|a L IH]; intros i x.
  - rewrite skipn_nil. cbn. split; [intros [] | intros (q & l & _ & H & _); destruct q; discriminate].
  - destruct i as [|i]; cbn [skipn concat].
    + rewrite in_app_iff. pose proof (IH 0 x) as H. cbn [skipn] in H. rewrite H. split.
      * intros [Hx|(q & l & _ & Hq & Hl)]; [exists 0, a; auto with arith | exists (S q), l; auto with arith].
      * intros ([|q] & l & _ & Hq & Hl); [injection Hq as <-; auto | right; exists q, l; auto with arith].
    + rewrite IH. split.
      * intros (q & l & Hi & Hq & Hl). exists (S q), l. auto with arith.
      * intros ([|q] & l & Hi & Hq & Hl); [lia | exists q, l; auto with arith].
Qed.
Lemma layers_fronts (f : vec -> vec) d current : (forall v : vec, In v current -> length (f v : vec) = d) ->
  exists layers, paretofront_layers f current = Some layers /\ fronts_of f current layers.
Proof.
  intros Hd. destruct (paretofront_layers_correct vec f d current) as (layers & E & HP & HN & _ & H1 & H2); [exact Hd|].
  exists layers. split; [exact E|]. split; [exact HP|]. split; [exact HN|]. intros i front Hi x. split.
  - intros Hx. split; [|exact (H1 i front x Hi Hx)]. apply concat_skipn_in. exists i, front. auto.
  - intros (Hx & ND). apply concat_skipn_in in Hx. destruct Hx as (q & l & Hq & Hl & Hx).
    destruct (Nat.eq_dec q i) as [->|Hn]; [congruence|]. exfalso. destruct q as [|q]; [lia|].
    destruct (nth_error layers q) as [up|] eqn:Eu; [|apply nth_error_None in Eu; assert (S q < length layers) by (apply nth_error_Some; congruence); lia].
    destruct (H2 q up l x Eu Hl Hx) as (y & Hy & D). apply (ND y); [|exact D]. apply concat_skipn_in. exists q, up. split; [lia | auto].
Qed.

(** Emigrant: front number i (from 0) is chosen exactly when the uniform draw u falls into an interval of length
    (1/(i+1)) / (1 + 1/2 + ... + 1/L); within the front the draw k (of random.choice) chooses uniformly. *)
Theorem C164_emigrant :
  forall (f : vec -> vec) (d : nat) (current : list vec), 
    (forall v, In v current -> length (f v) = d) -> current <> [] ->
    exists fronts, fronts_of f current fronts /\
      forall (u : Q) (k : nat), (0 <= u < 1)%Q ->
        exists i front x rest, nth_error fronts i = Some front /\
          (harmonic i / harmonic (length fronts) <= u < harmonic (S i) / harmonic (length fronts))%Q /\
          pick_refugee f u k current = Some (x, rest) /\
          nth_error front (k mod length front) = Some x /\ Permutation current (x :: rest).
Proof.
  intros f d current Hd NE. destruct (layers_fronts f d current Hd) as (layers & E & F). exists layers. split; [exact F|].
  destruct F as (HP & HNE & _). intros u k Hu. unfold pick_refugee. rewrite E.
  set (ws := map (fun i => (1 / inject_Z (Z.of_nat (i + 1)))%Q) (seq 0 (length layers))).
  assert (Lw : length ws = length layers) by (unfold ws; rewrite map_length, seq_length; reflexivity).
  assert (Sn : map snd (combine layers ws) = ws) by (apply map_snd_combine; exact Lw).
  assert (LNE : layers <> []) by (intros ->; cbn in HP; apply Permutation_nil in HP; contradiction).
  assert (HW : (qsum ws == harmonic (length layers))%Q) by apply qsum_harmonic.
  assert (TP : (0 < qsum ws)%Q).
  { pose proof (weights_pos (length layers)) as W. fold ws in W. destruct ws as [|w ws']; [destruct layers; [contradiction | discriminate]|].
    inversion W as [|? ? W1 W2]; subst. change (0 < w + qsum ws')%Q. assert ((0 <= qsum ws')%Q) by (apply qsum_nonneg; eapply Forall_impl; [|exact W2]; intros ? ?; apply Qlt_le_weak; assumption). cbn beta in W1. lra. }
  set (choices := combine layers ws).
  assert (TT : (total_weight choices == qsum ws)%Q) by (rewrite total_weight_qsum; unfold choices; rewrite Sn; reflexivity).
  set (r := (u * total_weight choices)%Q).
  assert (R : (0 <= r < qsum ws)%Q) by (unfold r; rewrite TT; split; nra).
  pose proof (choice_loop_spec r choices 0%Q (proj1 R)) as SP. unfold weighted_choice.
  destruct (choice_loop r 0 choices) as [layer|]; [|exfalso; unfold choices in SP; rewrite Sn in SP; lra].
  destruct SP as (i & w & Hi & B1 & B2).
  assert (Il : i < length layers).
  { assert (i < length choices) by (apply nth_error_Some; congruence). unfold choices in *. rewrite combine_length in *. lia. }
  assert (Cum : forall j, j <= length layers -> (qsum (map snd (firstn j choices)) == harmonic j)%Q).
  { intros j Hj. unfold choices. rewrite combine_firstn', map_snd_combine by (rewrite !firstn_length; lia).
    unfold ws. rewrite firstn_map, firstn_seq' by exact Hj. apply qsum_harmonic. }
  rewrite Cum in B1 by lia. rewrite Cum in B2 by lia.
  assert (Hl : nth_error layers i = Some layer).
  { destruct (nth_error layers i) as [l'|] eqn:El; [|apply nth_error_None in El; lia].
    assert (G : forall (L : list (list vec)) (W : list Q) j a b, nth_error (combine L W) j = Some (a, b) -> nth_error L j = Some a).
    { induction L as [|a0 L IH]; intros [|b0 W] [|j] a b H; cbn in H; try discriminate; [now injection H as -> _ | exact (IH W j a b H)]. }
    pose proof (G _ _ _ _ _ Hi). congruence. }
  pose proof (nth_error_In _ _ Hl) as Hin.
  rewrite Forall_forall in HNE. pose proof (HNE layer Hin) as NEl. destruct layer as [|l0 layer'] eqn:El; [contradiction|]. rewrite <- El in *.
  destruct (nth_error layer (k mod length layer)) as [x|] eqn:Ex.
  2:{ apply nth_error_None in Ex. pose proof (Nat.mod_upper_bound k (length layer)). rewrite El in *. cbn [length] in *. lia. }
  assert (Hx : In x current) by (eapply Permutation_in; [exact HP|]; apply in_concat; exists layer; split; [exact Hin | exact (nth_error_In _ _ Ex)]).
  destruct (remove_vec x current) as [c'|] eqn:Er; [|exfalso; exact (remove_vec_none _ _ Er Hx)].
  exists i, layer, x, c'. split; [exact Hl|]. split; [|split; [reflexivity | split; [exact Ex | now apply remove_vec_some]]].
  unfold r in B1, B2. rewrite TT, HW in B1, B2. rewrite HW in TP. split.
  - apply Qle_shift_div_r; [exact TP | lra].
  - apply Qlt_shift_div_l; [exact TP | lra].
Qed.
Print Assumptions C164_emigrant.

Lemma harmonic_steps :
  forall i L : nat, S i < L ->
    (0 < (harmonic (S (S i)) - harmonic (S i)) / harmonic L
       < (harmonic (S i) - harmonic i) / harmonic L)%Q.
Proof.
  intros i L H.
  assert (P : forall n, (0 <= harmonic n)%Q /\ (0 < harmonic (S n))%Q).
  { assert (D : forall n, (0 < 1 / inject_Z (Z.of_nat (S n)))%Q).
    { intros n. apply Qlt_shift_div_l; [change 0%Q with (inject_Z 0); rewrite <- Zlt_Qlt; lia | lra]. }
    induction n as [|n (I1 & I2)]; cbn [harmonic]; [split; [lra | apply Qlt_shift_div_l; [reflexivity|lra] || (vm_compute; reflexivity)]|].
    cbn [harmonic] in I2. split; [lra|]. pose proof (D (S n)). lra. }
  destruct L as [|L]; [lia|]. destruct (P L) as (_ & HL). cbn [harmonic] in *.
  set (a := inject_Z (Z.of_nat (S i))). set (b := inject_Z (Z.of_nat (S (S i)))).
  assert (A : (0 < a)%Q) by (unfold a; change 0%Q with (inject_Z 0); rewrite <- Zlt_Qlt; lia).
  assert (Bq : (b == a + 1)%Q) by (unfold a, b; change 1%Q with (inject_Z 1); rewrite <- inject_Z_plus; f_equiv; lia).
  assert (I : (0 < 1 / b < 1 / a)%Q).
  { split; [apply Qlt_shift_div_l; lra|]. apply Qlt_shift_div_l; [exact A|]. setoid_replace (1 / b * a)%Q with (a / b)%Q by (field; lra).
    apply Qlt_shift_div_r; lra. }
  set (h := (harmonic L + 1 / inject_Z (Z.of_nat (S L)))%Q) in *. split.
  - apply Qlt_shift_div_l; [exact HL|]. lra.
  - apply Qlt_shift_div_l; [exact HL|]. setoid_replace ((harmonic i + 1 / a + 1 / b - (harmonic i + 1 / a)) / h * h)%Q with (1 / b)%Q by (field; lra). lra.
Qed.
Lemma harmonic_pos L : 0 < L -> (0 < harmonic L)%Q.
Proof.
  assert (D : forall n, (0 < 1 / inject_Z (Z.of_nat (S n)))%Q).
  { intros n. apply Qlt_shift_div_l; [change 0%Q with (inject_Z 0); rewrite <- Zlt_Qlt; lia | lra]. }
  induction L as [|[|L] IH]; intros H; [lia | cbn [harmonic]; pose proof (D 0); lra |]. specialize (IH ltac:(lia)).
  change (harmonic (S (S L))) with (harmonic (S L) + 1 / inject_Z (Z.of_nat (S (S L))))%Q. pose proof (D (S L)). lra.
Qed.

(** A better front is always the likelier one: the draws u in [0, 1) are cut into one interval per front, the emigrant
    comes from the front in whose interval u lies, and each interval is longer than the next. *)
Theorem C164_better_fronts :
  forall (f : vec -> vec) (d : nat) (current : list vec), (forall v, In v current -> length (f v) = d) -> current <> [] ->
    exists (fronts : list (list vec)) (cut : nat -> Q), fronts_of f current fronts /\
      (cut 0%nat == 0)%Q /\ (cut (length fronts) == 1)%Q /\
      (forall i, S i < length fronts -> (0 < cut (S (S i)) - cut (S i) < cut (S i) - cut i)%Q) /\
      forall (u : Q) (k : nat), (0 <= u < 1)%Q ->
        exists i front x rest, nth_error fronts i = Some front /\ (cut i <= u < cut (S i))%Q /\
          pick_refugee f u k current = Some (x, rest) /\ In x front.
Proof.
  intros f d current Hd NE. destruct (C164_emigrant f d current Hd NE) as (fronts & F & H).
  exists fronts, (fun i => harmonic i / harmonic (length fronts))%Q. split; [exact F|].
  assert (L : 0 < length fronts) by (destruct fronts; [destruct F as (HP & _); cbn in HP; apply Permutation_nil in HP; contradiction | cbn; lia]).
  pose proof (harmonic_pos _ L) as P. split; [cbn [harmonic]; field; lra|]. split; [field; lra|]. split.
  - intros i Hi. destruct (harmonic_steps i _ Hi) as (A & B). unfold Qdiv in *. split; lra.
  - intros u k Hu. destruct (H u k Hu) as (i & front & x & rest & E1 & E2 & E3 & E4 & _). exists i, front, x, rest.
    split; [exact E1|]. split; [exact E2|]. split; [exact E3 | exact (nth_error_In _ _ E4)].
Qed.
Print Assumptions C164_better_fronts.

(** But an individual can be less likely to emigrate than one it dominates: the member of a front shares its chance with
    the rest of the front.  Here [2, 2] emigrates whenever u >= 2/3, and [1, 1], which dominates it, only if u < 2/3 and
    the choice among three hits it: chances 1/3 and 2/9. *)
Theorem C164_better_individual_refuted :
  let population := [[0; 2]; [1; 1]; [2; 0]; [2; 2]]%Z in
  pareto_dom [1; 1]%Z [2; 2]%Z /\
  forall (u : Q) (k : nat), (0 <= u < 1)%Q ->
    exists x rest, pick_refugee (fun v => v) u k population = Some (x, rest) /\
      (x = [2; 2]%Z <-> (2 # 3 <= u)%Q) /\
      (x = [1; 1]%Z <-> (u < 2 # 3)%Q /\ k mod 3 = 1).
Proof.
  cbv zeta. split.
  { split; [repeat constructor; lia|]. exists 0, 1%Z, 2%Z. repeat split. }
  intros u k Hu. unfold pick_refugee.
  replace (paretofront_layers (fun v => v) [[0; 2]; [1; 1]; [2; 0]; [2; 2]]%Z)
    with (Some [[[0; 2]; [1; 1]; [2; 0]]; [[2; 2]]]%Z) by (vm_compute; reflexivity).
  cbv zeta. set (choices := combine _ _). assert (TW : (total_weight choices == 3 # 2)%Q) by (vm_compute; reflexivity).
  unfold weighted_choice, choices at 2. cbn [length seq map combine choice_loop Nat.add Z.of_nat Pos.of_succ_nat Pos.succ].
  set (r := (u * total_weight choices)%Q). assert (Er : (r == u * (3 # 2))%Q) by (unfold r; now rewrite TW).
  destruct (Qle_bool (0 + 1 / inject_Z 1) r) eqn:C1; cbn [negb].
  - apply Qle_bool_iff in C1. setoid_replace (0 + 1 / inject_Z 1)%Q with 1%Q in C1 by reflexivity.
    destruct (Qle_bool (0 + 1 / inject_Z 1 + 1 / inject_Z 2) r) eqn:C2; cbn [negb].
    + apply Qle_bool_iff in C2. setoid_replace (0 + 1 / inject_Z 1 + 1 / inject_Z 2)%Q with (3 # 2)%Q in C2 by reflexivity. lra.
    + cbv beta iota. cbn [length]. rewrite Nat.mod_1_r. cbn [nth_error]. eexists _, _. split; [vm_compute; reflexivity|]. split.
      * split; [intros _; lra | reflexivity].
      * split; [discriminate | intros (H & _); lra].
  - assert (N1 : ~ (1 <= r)%Q).
    { intros H. assert (Qle_bool (0 + 1 / inject_Z 1) r = true) by (apply Qle_bool_iff; setoid_replace (0 + 1 / inject_Z 1)%Q with 1%Q by reflexivity; exact H). congruence. }
    cbv beta iota. cbn [length]. pose proof (Nat.mod_upper_bound k 3 ltac:(lia)) as Hk.
    destruct (k mod 3) as [|[|[|m]]]; [| | | lia]; cbn [nth_error]; eexists _, _; (split; [vm_compute; reflexivity|]);
      (split; [split; [discriminate | intros H; lra]|]); split; try discriminate; try (intros (_ & ?); discriminate); intros; split; try reflexivity; lra.
Qed.
Print Assumptions C164_better_individual_refuted.

(** The hypotheses of C164_emigrant are met there, with fronts of three members and one. *)
Example C164_example :
  (forall v, In v [[0; 2]; [1; 1]; [2; 0]; [2; 2]]%Z -> length v = 2) /\
  fronts_of (fun v => v) [[0; 2]; [1; 1]; [2; 0]; [2; 2]]%Z [[[0; 2]; [1; 1]; [2; 0]]; [[2; 2]]]%Z /\
  (harmonic 1 / harmonic 2 == 2 # 3)%Q /\
  pick_refugee (fun v => v) (1 # 2) 4 [[0; 2]; [1; 1]; [2; 0]; [2; 2]]%Z = Some ([1; 1], [[0; 2]; [2; 0]; [2; 2]])%Z.
Proof.
  split; [intros v Hv; cbn in Hv; intuition (subst; reflexivity)|]. split; [|split; vm_compute; reflexivity].
  assert (E : paretofront_layers (fun v => v) [[0; 2]; [1; 1]; [2; 0]; [2; 2]]%Z = Some [[[0; 2]; [1; 1]; [2; 0]]; [[2; 2]]]%Z) by (vm_compute; reflexivity).
  destruct (paretofront_layers_correct vec (fun v => v) 2 [[0; 2]; [1; 1]; [2; 0]; [2; 2]]%Z) as (l & E' & HP & HN & _ & H1 & H2).
  { intros x Hx. cbn in Hx. intuition (subst; reflexivity). }
  rewrite E in E'. injection E' as <-. split; [exact HP|]. split; [exact HN|]. intros i front Hi x. split.
  - intros Hx. split; [|exact (H1 i front x Hi Hx)]. apply concat_skipn_in. exists i, front. auto.
  - intros (Hx & ND). apply concat_skipn_in in Hx. destruct Hx as (q & l & Hq & Hl & Hx).
    destruct (Nat.eq_dec q i) as [->|Hn]; [congruence|]. exfalso. destruct q as [|[|q]]; [lia | | destruct q; discriminate].
    assert (i = 0) by lia. subst i. destruct (H2 0 _ l x eq_refl Hl Hx) as (y & Hy & D). apply (ND y); [|exact D].
    apply concat_skipn_in. eexists 0, _. split; [lia|]. split; [reflexivity | exact Hy].
Qed.
