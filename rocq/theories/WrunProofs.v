From Verif Require Import WrunModel WrunSpec.

Ltac run_cases j :=
  destruct j as [[?z|] [?en|] [?es|] [?ep|] [|] [?em|] [?r|?er] ?ck [?esh|]];
  cbv [run guarded prepare_driver process log_time finally effect bind ret fst snd j_renice j_nice j_seed j_prepare
       j_actor j_make j_run j_clock j_shutdown app last] in *.

Lemma times_app p a b : times p (a ++ b) = times p a + times p b.
Proof. unfold times. rewrite filter_app, app_length. reflexivity. Qed.

Lemma run_shut R k (j : job R) :
  times (is_made k) (fst (run R k j)) = times (is_shut k) (fst (run R k j)) /\
  times (is_made k) (fst (run R k j)) <= 1 /\
  (In (Made k) (fst (run R k j)) -> exists pre, fst (run R k j) = pre ++ [Shut k] /\ In (Made k) pre /\ ~ In (Shut k) pre).
Proof.
  run_cases j; cbn; rewrite ?Nat.eqb_refl; cbn; rewrite ?Nat.eqb_refl; cbn;
    (split; [reflexivity|]; split; [lia|]; intros H).
  all: try (exfalso; intuition discriminate).
  all: match goal with
     | |- exists pre, [?a; ?b] = _ /\ _ => exists [a]
     | |- exists pre, [?a; ?b; ?c] = _ /\ _ => exists [a; b]
     | |- exists pre, [?a; ?b; ?c; ?d] = _ /\ _ => exists [a; b; c]
     | |- exists pre, [?a; ?b; ?c; ?d; ?e] = _ /\ _ => exists [a; b; c; d]
     | |- exists pre, [?a; ?b; ?c; ?d; ?e; ?f] = _ /\ _ => exists [a; b; c; d; e]
     end; split; [reflexivity|]; cbn; split; [tauto | intuition discriminate].
Qed.

Lemma run_other R k (j : job R) i : i <> k ->
  times (is_made i) (fst (run R k j)) = 0 /\ times (is_shut i) (fst (run R k j)) = 0.
Proof.
  intros Hi. assert (E : Nat.eqb k i = false) by (apply Nat.eqb_neq; congruence).
  run_cases j; cbn; rewrite ?E; cbn; rewrite ?E; auto.
Qed.

Lemma run_some R k (j : job R) x :
  snd (run R k j) = inl (Some x) <-> exists r, succeeds j r /\ x = (r, spent j, k).
Proof.
  unfold succeeds, spent. run_cases j; cbn; split; intros H;
    try discriminate; try (destruct H as (r' & (H1 & H2 & H3 & H4 & H5 & H6) & H7); try discriminate; destruct H1; discriminate);
    try (destruct er; discriminate); try (destruct ep; discriminate); try (destruct em; discriminate).
  all: try (injection H as <-; eexists; split; [|reflexivity]; repeat split; auto).
  all: try (destruct H as (r' & (H1 & H2 & H3 & H4 & H5 & H6) & ->); injection H5 as ->; reflexivity).
Qed.

Lemma run_contained R k (j : job R) : contained j -> exists v, snd (run R k j) = inl v.
Proof.
  unfold contained, ordinary. intros (H1 & H2 & H3 & H4 & H5 & H6). run_cases j; cbn in *;
    try discriminate; try (destruct H1; discriminate); eauto.
  all: try (destruct ep; eauto; exfalso; eapply H3; reflexivity).
  all: try (destruct em; eauto; exfalso; eapply H4; reflexivity).
  all: try (destruct er; eauto; exfalso; eapply H5; reflexivity).
Qed.

Lemma queue_shut R i : forall jobs k,
  times (is_made i) (fst (queue R k jobs)) = times (is_shut i) (fst (queue R k jobs)) /\
  times (is_made i) (fst (queue R k jobs)) <= 1 /\
  (i < k -> times (is_made i) (fst (queue R k jobs)) = 0).
Proof.
  induction jobs as [|j jobs IH]; intros k; [cbn; auto|].
  cbn [queue].
  match goal with |- context [bind (run R k j) ?F] => set (f := F) end.
  assert (HB : fst (bind (run R k j) f) = match snd (run R k j) with inl v => fst (run R k j) ++ fst (f v) | inr _ => fst (run R k j) end).
  { unfold bind. destruct (snd (run R k j)); reflexivity. }
  rewrite HB. clear HB. unfold f. clear f.
  assert (Hj : times (is_made i) (fst (run R k j)) = times (is_shut i) (fst (run R k j)) /\
               times (is_made i) (fst (run R k j)) <= 1 /\ (i <> k -> times (is_made i) (fst (run R k j)) = 0)).
  { destruct (Nat.eq_dec i k) as [->|Hne].
    - destruct (run_shut R k j) as (H1 & H2 & _). repeat split; auto. congruence.
    - destruct (run_other R k j i Hne). repeat split; lia. }
  destruct (snd (run R k j)) as [[x|]|e] eqn:E; cbn [fst].
  - destruct (IH (S k)) as (Q1 & Q2 & Q3).
    assert (Hq : forall p, p (Reported k) = false ->
      times p (fst (bind ([Reported k], inl tt) (fun _ => bind (queue R (S k) jobs) (fun rs => ret (x :: rs))))) =
      times p (fst (queue R (S k) jobs))).
    { intros p Hp. cbn [bind fst snd app]. unfold bind. destruct (snd (queue R (S k) jobs)); cbn [fst ret];
        rewrite ?app_nil_r; unfold times; cbn [filter]; rewrite Hp; reflexivity. }
    rewrite !times_app, !Hq by reflexivity.
    destruct Hj as (J1 & J2 & J3). destruct (Nat.eq_dec i k) as [->|Hne].
    + specialize (Q3 ltac:(lia)). repeat split; lia.
    + specialize (J3 Hne). repeat split; lia.
  - cbn. rewrite app_nil_r. repeat split; try apply Hj. intros Hi. apply Hj. lia.
  - repeat split; try apply Hj. intros Hi. apply Hj. lia.
Qed.

Lemma queue_ok R : forall jobs k rs, snd (queue R k jobs) = inl rs ->
  Forall (fun j => exists r, succeeds j r) jobs /\
  length rs = length jobs /\
  forall n j, nth_error jobs n = Some j -> exists r, succeeds j r /\ nth_error rs n = Some (r, spent j, k + n).
Proof.
  induction jobs as [|j jobs IH]; intros k rs H; cbn [queue] in H.
  - injection H as <-. split; [constructor|]. split; [reflexivity|]. intros [|n] j Hn; discriminate.
  - unfold bind at 1 in H. destruct (snd (run R k j)) as [[x|]|e] eqn:E; cbn [snd] in H; [|discriminate|discriminate].
    cbn [bind fst snd] in H. unfold bind in H. destruct (snd (queue R (S k) jobs)) as [rs'|e] eqn:EQ; cbn in H; [|discriminate].
    injection H as <-. destruct (IH (S k) rs' EQ) as (I1 & I2 & I3).
    apply run_some in E. destruct E as (r & Hs & ->).
    split; [constructor; [exists r; exact Hs | exact I1]|]. split; [cbn; lia|].
    intros [|n] j' Hn; cbn in Hn.
    + injection Hn as <-. exists r. rewrite Nat.add_0_r. auto.
    + destruct (I3 n j' Hn) as (r' & H1 & H2). exists r'. split; [exact H1|]. cbn. rewrite H2. do 2 f_equal. lia.
Qed.

Lemma queue_total R : forall jobs k, Forall (fun j => exists r, succeeds j r) jobs -> exists rs, snd (queue R k jobs) = inl rs.
Proof.
  induction jobs as [|j jobs IH]; intros k H; [cbn; eauto|].
  apply Forall_cons_iff in H. destruct H as [[r Hr] H]. destruct (IH (S k) H) as (rs & Hrs).
  cbn [queue]. unfold bind at 1.
  assert (E : snd (run R k j) = inl (Some (r, spent j, k))) by (apply run_some; eauto).
  rewrite E. cbn [snd bind fst]. unfold bind. rewrite Hrs. cbn. eauto.
Qed.

Lemma run_no_system R k (j : job R) : ~ In SystemDown (fst (run R k j)).
Proof. run_cases j; cbn; intuition discriminate. Qed.

Lemma queue_no_system R : forall jobs k, ~ In SystemDown (fst (queue R k jobs)).
Proof.
  induction jobs as [|j jobs IH]; intros k; [auto|]. cbn [queue]. unfold bind at 1.
  pose proof (run_no_system R k j) as Hj.
  destruct (snd (run R k j)) as [[x|]|e]; cbn [fst]; rewrite ?in_app_iff; [|cbn; tauto | exact Hj].
  intros [H|H]; [exact (Hj H)|]. cbn [bind fst snd] in H. unfold bind in H.
  destruct (snd (queue R (S k) jobs)); cbn in H; rewrite ?app_nil_r in H; destruct H as [H|H]; try discriminate; exact (IH _ H).
Qed.

Lemma parallel_shut R jobs k :
  times (is_shut k) (fst (run_parallel R jobs)) = times (is_made k) (fst (run_parallel R jobs)) /\
  times (is_made k) (fst (run_parallel R jobs)) <= 1.
Proof.
  destruct jobs as [|j jobs]; [cbn; auto|].
  destruct (queue_shut R k (j :: jobs) 0) as (H1 & H2 & _).
  assert (Hq : forall p, p SystemUp = false -> p SystemDown = false -> p Summary = false -> p ExecutorDown = false ->
    times p (fst (run_parallel R (j :: jobs))) = times p (fst (queue R 0 (j :: jobs)))).
  { intros p P1 P2 P3 P4. unfold run_parallel. cbn [bind fst snd]. unfold bind.
    destruct (snd (queue R 0 (j :: jobs))); cbn [fst snd app]; unfold times; cbn [filter]; rewrite P1; [|reflexivity].
    rewrite filter_app, app_length. cbn [filter]. rewrite P2, P3, P4. cbn. lia. }
  rewrite !Hq by reflexivity. lia.
Qed.

Lemma parallel_system R jobs :
  (In SystemDown (fst (run_parallel R jobs)) <-> jobs <> [] /\ Forall (fun j => exists r, succeeds j r) jobs) /\
  (forall rs, snd (run_parallel R jobs) = inl rs ->
     In SystemDown (fst (run_parallel R jobs)) /\ length rs = length jobs /\
     forall n j, nth_error jobs n = Some j -> exists r, succeeds j r /\ nth_error rs n = Some (r, spent j, n)).
Proof.
  destruct jobs as [|j jobs].
  - cbn. split; [split; [intuition discriminate | intros [H _]; congruence] | intros rs H; discriminate].
  - assert (EP : run_parallel R (j :: jobs) =
      match snd (queue R 0 (j :: jobs)) with
      | inl rs => (SystemUp :: fst (queue R 0 (j :: jobs)) ++ [Summary; ExecutorDown; SystemDown], inl rs)
      | inr e => (SystemUp :: fst (queue R 0 (j :: jobs)), inr e)
      end).
    { unfold run_parallel, bind. cbn [fst snd app]. destruct (snd (queue R 0 (j :: jobs))); reflexivity. }
    rewrite EP. clear EP. remember (j :: jobs) as js eqn:Ejs. pose proof (queue_no_system R js 0) as Hn.
    destruct (snd (queue R 0 js)) as [rs|e] eqn:E; cbn [fst snd].
    + destruct (queue_ok R js 0 rs E) as (Q1 & Q2 & Q3). split.
      * split; [intros _; split; [rewrite Ejs; discriminate | exact Q1] | intros _].
        right. apply in_or_app. right. cbn. auto.
      * intros rs' H. injection H as <-. split; [right; apply in_or_app; right; cbn; auto|]. split; [exact Q2 | exact Q3].
    + split; [|intros rs H; discriminate]. split.
      * intros [H|H]; [discriminate | contradiction].
      * intros [_ HF]. destruct (queue_total R js 0 HF) as (rs & Hrs). congruence.
Qed.
