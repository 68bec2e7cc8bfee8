(** Proofs about the run controllers and workers. *)
From Verif Require Import Spec Base RunModel RunSpec.
Local Open Scope Z_scope.

Section Runs.
  Context {S P : Type} (step : S -> S) (cost : S -> Z) (finalize : S -> S * P).
  Notation next_step := (next_step step cost).
  Notation budget_run := (budget_run step cost).
  Notation steps_run := (steps_run step cost).
  Notation after := (after step).

  Lemma after_S k s : after (Datatypes.S k) s = step (after k s).
  Proof. revert s; induction k as [|k IH]; intros s; [reflexivity|]. cbn [RunSpec.after]. rewrite <- IH. reflexivity. Qed.

  Lemma after_plus j k s : after (j + k) s = after k (after j s).
  Proof. revert s; induction j as [|j IH]; intros s; [reflexivity|]. cbn. apply IH. Qed.

  (** the messages of [n] steps *)
  Definition msgs_from (n0 n : nat) (s : S) : list progress :=
    map (fun k => {| p_step_no := (n0 + k)%nat; p_cost := cost (after (Datatypes.S k) s) |}) (seq 0 n).

  Lemma msgs_from_S n0 n s :
    msgs_from n0 (Datatypes.S n) s =
    {| p_step_no := n0; p_cost := cost (step s) |} :: msgs_from (Datatypes.S n0) n (step s).
  Proof.
    unfold msgs_from. cbn [seq map]. rewrite Nat.add_0_r. f_equal.
    rewrite <- seq_shift, map_map. apply map_ext. intros k.
    cbn [RunSpec.after]. f_equal. lia.
  Qed.

  Lemma msgs_from_app n0 a b s :
    msgs_from n0 (a + b) s = msgs_from n0 a s ++ msgs_from (n0 + a) b (after a s).
  Proof.
    revert n0 s; induction a as [|a IH]; intros n0 s.
    - cbn. rewrite Nat.add_0_r. reflexivity.
    - cbn [plus]. rewrite !msgs_from_S, IH. cbn [app RunSpec.after].
      rewrite Nat.add_succ_r. reflexivity.
  Qed.

  Lemma steps_run_eq n d :
    steps_run n d =
    (msgs_from (d_step_no d) n (d_state d),
     {| d_state := after n (d_state d); d_step_no := (d_step_no d + n)%nat |}).
  Proof.
    revert d; induction n as [|n IH]; intros [s k].
    - cbn. rewrite Nat.add_0_r. reflexivity.
    - cbn [RunModel.steps_run]. unfold RunModel.next_step. cbn [d_state d_step_no].
      rewrite IH. cbn [d_state d_step_no]. rewrite msgs_from_S. cbn [RunSpec.after].
      rewrite Nat.add_succ_r. reflexivity.
  Qed.

  Lemma budget_run_sound fuel b d ms d' :
    budget_run fuel b d = Some (ms, d') ->
    exists n, first_reaching step cost b (d_state d) n /\
      ms = msgs_from (d_step_no d) n (d_state d) /\
      d' = {| d_state := after n (d_state d); d_step_no := (d_step_no d + n)%nat |}.
  Proof.
    revert d ms d'; induction fuel as [|fuel IH]; intros [s k] ms d'; cbn [RunModel.budget_run d_state];
      destruct (Z.ltb_spec (cost s) b) as [H|H].
    - discriminate.
    - intros E. injection E as <- <-. exists 0%nat. split; [split; [exact H|lia]|].
      cbn. rewrite Nat.add_0_r. auto.
    - unfold RunModel.next_step. cbn [d_state d_step_no].
      destruct (budget_run fuel b _) as [[ms1 d1]|] eqn:E1; [|discriminate].
      intros E. injection E as <- <-.
      apply IH in E1. destruct E1 as (n & [Hn Hlt] & -> & ->). cbn [d_state d_step_no] in *.
      exists (Datatypes.S n). split; [split; [exact Hn|]|].
      + intros [|j] Hj; [exact H|]. cbn. apply Hlt. lia.
      + rewrite msgs_from_S. cbn [RunSpec.after]. rewrite Nat.add_succ_r. auto.
    - intros E. injection E as <- <-. exists 0%nat. split; [split; [exact H|lia]|].
      cbn. rewrite Nat.add_0_r. auto.
  Qed.

  Lemma budget_run_complete b n fuel d :
    first_reaching step cost b (d_state d) n -> (n <= fuel)%nat ->
    budget_run fuel b d =
      Some (msgs_from (d_step_no d) n (d_state d),
            {| d_state := after n (d_state d); d_step_no := (d_step_no d + n)%nat |}).
  Proof.
    revert n d; induction fuel as [|fuel IH]; intros n [s k] [Hn Hlt] Hf; cbn [d_state d_step_no] in *.
    - assert (n = 0)%nat by lia. subst n. cbn in *.
      destruct (Z.ltb_spec (cost s) b); [lia|]. rewrite Nat.add_0_r. reflexivity.
    - cbn [RunModel.budget_run d_state]. destruct n as [|n].
      + cbn in Hn. destruct (Z.ltb_spec (cost s) b); [lia|]. cbn. rewrite Nat.add_0_r. reflexivity.
      + pose proof (Hlt 0%nat ltac:(lia)) as H0. cbn in H0.
        destruct (Z.ltb_spec (cost s) b); [|lia].
        unfold RunModel.next_step. cbn [d_state d_step_no].
        rewrite (IH n); cbn [d_state d_step_no].
        * rewrite msgs_from_S. cbn [RunSpec.after]. rewrite Nat.add_succ_r. reflexivity.
        * split; [exact Hn|]. intros j Hj. apply (Hlt (Datatypes.S j)). lia.
        * lia.
  Qed.

  Lemma first_reaching_unique b s n m :
    first_reaching step cost b s n -> first_reaching step cost b s m -> n = m.
  Proof.
    intros [H1 H2] [H3 H4]. destruct (Nat.lt_trichotomy n m) as [H|[H|H]]; [|exact H|].
    - specialize (H4 n H). lia.
    - specialize (H2 m H). lia.
  Qed.

  Lemma budget_run_correct b d :
    (forall fuel ms d', budget_run fuel b d = Some (ms, d') ->
       exists n, first_reaching step cost b (d_state d) n /\
         d_state d' = after n (d_state d) /\ length ms = n /\
         forall k, (k < n)%nat ->
           nth_error ms k = Some {| p_step_no := (d_step_no d + k)%nat;
                                    p_cost := cost (after (Datatypes.S k) (d_state d)) |}) /\
    (forall n, first_reaching step cost b (d_state d) n ->
       exists fuel ms d', budget_run fuel b d = Some (ms, d')) /\
    ((forall n, cost (after n (d_state d)) < b) -> forall fuel, budget_run fuel b d = None).
  Proof.
    split; [|split].
    - intros fuel ms d' E. apply budget_run_sound in E. destruct E as (n & Hn & -> & ->).
      exists n. split; [exact Hn|]. split; [reflexivity|]. unfold msgs_from.
      split; [rewrite map_length, seq_length; reflexivity|].
      intros k Hk. rewrite nth_error_map.
      assert (Hs : nth_error (seq 0 n) k = Some k).
      { rewrite (nth_error_nth' _ 0%nat) by (rewrite seq_length; exact Hk). rewrite seq_nth by exact Hk. reflexivity. }
      rewrite Hs. reflexivity.
    - intros n Hn. exists n. rewrite (budget_run_complete b n n d Hn) by lia. eauto.
    - intros Hlt fuel. destruct (budget_run fuel b d) as [[ms d']|] eqn:E; [|reflexivity].
      apply budget_run_sound in E. destruct E as (n & [Hn _] & _). specialize (Hlt n). lia.
  Qed.

  (** costs carried by the messages *)
  Lemma budget_run_costs fuel b d ms d' :
    budget_run fuel b d = Some (ms, d') ->
    Forall (fun m => p_cost m < b) (removelast ms) /\
    (forall m, last (map Some ms) None = Some m -> b <= p_cost m) /\
    (b <= cost (d_state d) -> ms = [] /\ d' = d) /\
    b <= cost (d_state d').
  Proof.
    intros E. apply budget_run_sound in E. destruct E as (n & [Hn Hlt] & -> & ->).
    cbn [d_state].
    destruct n as [|n].
    - cbn. repeat split; auto; try discriminate. destruct d; cbn. rewrite Nat.add_0_r. reflexivity.
    - replace (Datatypes.S n) with (n + 1)%nat by lia. rewrite msgs_from_app.
      assert (Eone : msgs_from (d_step_no d + n) 1 (after n (d_state d)) =
                     [{| p_step_no := (d_step_no d + n)%nat; p_cost := cost (after (Datatypes.S n) (d_state d)) |}]).
      { unfold msgs_from. cbn. rewrite Nat.add_0_r. rewrite <- after_S. reflexivity. }
      rewrite Eone. rewrite removelast_last, map_app. cbn [map]. rewrite last_last.
      split; [|split; [|split]].
      + apply Forall_forall. intros m Hm. unfold msgs_from in Hm. apply in_map_iff in Hm.
        destruct Hm as (k & <- & Hk). apply in_seq in Hk. cbn [p_cost]. apply Hlt. lia.
      + intros m Em. injection Em as <-. exact Hn.
      + intros Hb. specialize (Hlt 0%nat ltac:(lia)). cbn in Hlt. lia.
      + replace (n + 1)%nat with (Datatypes.S n) by lia. exact Hn.
  Qed.

  (** ---- histories ---- *)
  Lemma run_history_numbering fuel rs d ms d' :
    run_history step cost fuel rs d = Some (ms, d') ->
    exists n, ms = msgs_from (d_step_no d) n (d_state d) /\
      d' = {| d_state := after n (d_state d); d_step_no := (d_step_no d + n)%nat |}.
  Proof.
    revert d ms d'; induction rs as [|r rs IH]; intros d ms d'; cbn [run_history].
    - intros E. injection E as <- <-. exists 0%nat. destruct d. cbn. rewrite Nat.add_0_r. auto.
    - assert (Hr : forall ms1 d1,
        (match r with RunSteps n => Some (steps_run n d) | RunBudget b => budget_run fuel b d end) = Some (ms1, d1) ->
        exists n, ms1 = msgs_from (d_step_no d) n (d_state d) /\
          d1 = {| d_state := after n (d_state d); d_step_no := (d_step_no d + n)%nat |}).
      { intros ms1 d1. destruct r as [n|b].
        - rewrite steps_run_eq. intros E. injection E as <- <-. eauto.
        - intros E. apply budget_run_sound in E. destruct E as (n & _ & -> & ->). eauto. }
      destruct (match r with RunSteps n => Some (steps_run n d) | RunBudget b => budget_run fuel b d end)
        as [[ms1 d1]|]; [|discriminate].
      destruct (Hr ms1 d1 eq_refl) as (n1 & -> & ->).
      destruct (run_history step cost fuel rs _) as [[ms2 d2]|] eqn:E2; [|discriminate].
      intros E. injection E as <- <-.
      apply IH in E2. destruct E2 as (n2 & -> & ->). cbn [d_state d_step_no].
      exists (n1 + n2)%nat. rewrite msgs_from_app, after_plus. split; [reflexivity|].
      f_equal. lia.
  Qed.

  Lemma steps_run_correct n d :
    length (fst (steps_run n d)) = n /\
    d_state (snd (steps_run n d)) = after n (d_state d) /\
    d_step_no (snd (steps_run n d)) = (d_step_no d + n)%nat.
  Proof.
    rewrite steps_run_eq. cbn. unfold msgs_from. rewrite map_length, seq_length. auto.
  Qed.

  Lemma msgs_from_nth n0 n s k m :
    nth_error (msgs_from n0 n s) k = Some m ->
    (k < n)%nat /\ m = {| p_step_no := (n0 + k)%nat; p_cost := cost (after (Datatypes.S k) s) |}.
  Proof.
    unfold msgs_from. rewrite nth_error_map. intros H.
    assert (Hk : (k < n)%nat).
    { destruct (Nat.lt_ge_cases k n) as [Hl|Hl]; [exact Hl|].
      rewrite (proj2 (nth_error_None (seq 0 n) k)) in H by (rewrite seq_length; exact Hl). discriminate. }
    rewrite (nth_error_nth' _ 0%nat), seq_nth in H by (rewrite ?seq_length; exact Hk).
    cbn in H. injection H as <-. auto.
  Qed.

  Lemma msgs_from_length n0 n s : length (msgs_from n0 n s) = n.
  Proof. unfold msgs_from. rewrite map_length, seq_length. reflexivity. Qed.

  Lemma run_history_numbered fuel rs s ms d' :
    run_history step cost fuel rs {| d_state := s; d_step_no := 0 |} = Some (ms, d') ->
    d_state d' = after (length ms) s /\ d_step_no d' = length ms /\
    forall k m, nth_error ms k = Some m ->
      p_step_no m = k /\ p_cost m = cost (after (Datatypes.S k) s).
  Proof.
    intros E. apply run_history_numbering in E. destruct E as (n & -> & ->). cbn [d_state d_step_no].
    rewrite msgs_from_length. cbn. split; [reflexivity|]. split; [reflexivity|].
    intros k m Hk. apply msgs_from_nth in Hk. destruct Hk as [_ ->]. auto.
  Qed.

  (** ---- BudgetWorker ---- *)
  Notation budget_worker := (budget_worker step cost finalize).

  Lemma budget_worker_pure fuel budgets :
    (forall s, fst (finalize s) = s) ->
    forall s0 k0 d rs d',
    d_state d = after k0 s0 ->
    (forall j, (j < k0)%nat -> forall b, In b budgets -> cost (after j s0) < b) ->
    StronglySorted Z.le budgets ->
    budget_worker fuel budgets d = Some (rs, d') ->
    Forall2 (fun b r => exists k, first_reaching step cost b s0 k /\ (k0 <= k)%nat /\
                st_name r = b /\ st_population r = snd (finalize (after k s0)) /\
                st_cost r = cost (after k s0)) budgets rs /\
    exists n, d_state d' = after (k0 + n) s0 /\ d_step_no d' = (d_step_no d + n)%nat /\
      (forall b, last (map Some budgets) None = Some b -> first_reaching step cost b s0 (k0 + n)).
  Proof.
    intros Hpure s0. induction budgets as [|b bs IH]; intros k0 d rs d' Hd Hlt Hs; cbn [RunModel.budget_worker].
    - intros E. injection E as <- <-. split; [constructor|]. exists 0%nat. rewrite !Nat.add_0_r.
      split; [exact Hd|]. split; [reflexivity|]. discriminate.
    - destruct (budget_run fuel b d) as [[ms d1]|] eqn:E1; [|discriminate].
      apply budget_run_sound in E1. destruct E1 as (n & [Hn Hnl] & _ & ->).
      unfold process_budget. cbn [d_state d_step_no].
      destruct (finalize (after n (d_state d))) as [s2 pop] eqn:Ef.
      assert (s2 = after n (d_state d)) by (rewrite <- (Hpure (after n (d_state d))), Ef; reflexivity).
      subst s2.
      destruct (budget_worker fuel bs _) as [[rs1 d3]|] eqn:E3; [|discriminate].
      intros E. injection E as <- <-.
      rewrite Hd, <- after_plus in *.
      inversion Hs as [|b' bs' Hs' Hall]; subst.
      assert (Hfirst : forall j, (j < k0 + n)%nat -> cost (after j s0) < b).
      { intros j Hj. destruct (Nat.lt_ge_cases j k0) as [Hj'|Hj'].
        - apply (Hlt j Hj' b). left. reflexivity.
        - specialize (Hnl (j - k0)%nat ltac:(lia)). rewrite <- after_plus in Hnl.
          replace (k0 + (j - k0))%nat with j in Hnl by lia. exact Hnl. }
      enough (Hmid : Forall2 (fun b r => exists k, first_reaching step cost b s0 k /\ (k0 <= k)%nat /\
                st_name r = b /\ st_population r = snd (finalize (after k s0)) /\
                st_cost r = cost (after k s0)) bs rs1 /\
          exists n0, d_state d3 = after (k0 + n0) s0 /\ d_step_no d3 = (d_step_no d + n0)%nat /\
             match bs with [] => n0 = n | _ => (forall b, last (map Some bs) None = Some b -> first_reaching step cost b s0 (k0 + n0)) end).
      { destruct Hmid as [Hm1 (n0 & Hm2 & Hm3 & Hm4)]. split.
        - constructor; [|exact Hm1].
          exists (k0 + n)%nat. cbn. repeat split; auto; try lia. rewrite Ef. reflexivity.
        - exists n0. split; [exact Hm2|]. split; [exact Hm3|].
          intros b1 Hb1. destruct bs as [|b2 bs2].
          + subst n0. cbn in Hb1. injection Hb1 as <-. split; [exact Hn|exact Hfirst].
          + apply Hm4. cbn [map last] in *. exact Hb1. }
      { assert (Hlt' : forall j, (j < k0 + n)%nat -> forall b1, In b1 bs -> cost (after j s0) < b1).
        { intros j Hj b1 Hb1. rewrite Forall_forall in Hall. specialize (Hall b1 Hb1).
          specialize (Hfirst j Hj). lia. }
        pose proof (fun Hd1 => IH (k0 + n)%nat _ _ _ Hd1 Hlt' Hs' E3) as IH'.
        cbn [d_state] in IH'. specialize (IH' eq_refl).
        destruct IH' as [IH1 (n0 & IH2 & IH3 & IH4)]. cbn [d_step_no] in IH3.
        split.
        - eapply Forall2_impl; [|exact IH1].
          intros b1 r (k & Hk & Hle & Hrest). exists k. split; [exact Hk|]. split; [lia|exact Hrest].
        - destruct bs as [|b2 bs2].
          + cbn in E3. injection E3 as _ <-. exists n. auto.
          + exists (n + n0)%nat. rewrite Nat.add_assoc. split; [exact IH2|]. split; [lia|exact IH4]. }
  Qed.

  Lemma budget_worker_trajectory fuel budgets s rs d' :
    (forall s, fst (finalize s) = s) -> StronglySorted Z.le budgets ->
    budget_worker fuel budgets {| d_state := s; d_step_no := 0 |} = Some (rs, d') ->
    Forall2 (fun b r => exists k, first_reaching step cost b s k /\
                st_name r = b /\ st_population r = snd (finalize (after k s)) /\
                st_cost r = cost (after k s)) budgets rs /\
    d_state d' = after (d_step_no d') s /\
    (forall b, last (map Some budgets) None = Some b -> first_reaching step cost b s (d_step_no d')).
  Proof.
    intros Hp Hs E.
    destruct (budget_worker_pure fuel budgets Hp s 0%nat _ _ _ (eq_refl : d_state {| d_state := s; d_step_no := 0 |} = after 0 s)
      ltac:(lia) Hs E) as [H1 (n & H2 & H3 & H4)].
    cbn [d_step_no Nat.add] in *. rewrite H3. split; [|split; [exact H2|exact H4]].
    eapply Forall2_impl; [|exact H1].
    intros b r (k & Hk & _ & H). exists k. auto.
  Qed.

  (** with a state-changing finalizer that does not lower the cost *)
  Lemma budget_worker_costs fuel budgets :
    (forall s, cost s <= cost (fst (finalize s))) ->
    forall d rs d',
    budget_worker fuel budgets d = Some (rs, d') ->
    map (@st_name P) rs = budgets /\
    Forall (fun r => st_name r <= st_cost r) rs /\
    Forall (fun r => cost (d_state d) <= st_cost r) rs /\
    StronglySorted (fun r1 r2 => st_cost r1 <= st_cost r2) rs.
  Proof.
    intros Hmono. induction budgets as [|b bs IH]; intros d rs d'; cbn [RunModel.budget_worker].
    - intros E. injection E as <- <-. repeat split; constructor.
    - destruct (budget_run fuel b d) as [[ms d1]|] eqn:E1; [|discriminate].
      apply budget_run_sound in E1. destruct E1 as (n & [Hn Hnl] & _ & ->).
      unfold process_budget. cbn [d_state d_step_no].
      destruct (finalize (after n (d_state d))) as [s2 pop] eqn:Ef.
      assert (Hs2 : cost (after n (d_state d)) <= cost s2).
      { specialize (Hmono (after n (d_state d))). rewrite Ef in Hmono. exact Hmono. }
      destruct (budget_worker fuel bs _) as [[rs1 d3]|] eqn:E3; [|discriminate].
      intros E. injection E as <- <-.
      apply IH in E3. destruct E3 as (H1 & H2 & H3 & H4). cbn [d_state] in H3.
      assert (H0 : cost (d_state d) <= cost (after n (d_state d))).
      { destruct n as [|n]; [cbn; lia|]. specialize (Hnl 0%nat ltac:(lia)). cbn in Hnl.  lia. }
      repeat split.
      + cbn. f_equal. exact H1.
      + constructor; [cbn; lia|exact H2].
      + constructor; [cbn; lia|]. eapply Forall_impl; [|exact H3]. cbn. intros r Hr. lia.
      + constructor; [exact H4|exact H3].
  Qed.

  Lemma budget_run_fuel f f' b d r :
    (f <= f')%nat -> budget_run f b d = Some r -> budget_run f' b d = Some r.
  Proof.
    revert f' d r; induction f as [|f IH]; intros f' d r Hf; cbn [RunModel.budget_run].
    - destruct (cost (d_state d) <? b) eqn:E; [discriminate|].
      destruct f'; cbn [RunModel.budget_run]; rewrite E; auto.
    - destruct f' as [|f']; [lia|]. cbn [RunModel.budget_run].
      destruct (cost (d_state d) <? b); [|auto].
      destruct (next_step d) as [m d1].
      destruct (budget_run f b d1) as [[ms d2]|] eqn:E1; [|discriminate].
      rewrite (IH f' d1 (ms, d2)); [auto|lia|exact E1].
  Qed.

  Lemma budget_worker_fuel bs f f' d r :
    (f <= f')%nat -> budget_worker f bs d = Some r -> budget_worker f' bs d = Some r.
  Proof.
    intros Hf. revert d r; induction bs as [|b bs IH]; intros d r; cbn [RunModel.budget_worker]; [auto|].
    destruct (budget_run f b d) as [[ms d1]|] eqn:E1; [|discriminate].
    rewrite (budget_run_fuel f f' b d (ms, d1) Hf E1).
    destruct (process_budget cost finalize b d1) as [x d2].
    destruct (budget_worker f bs d2) as [[rs d3]|] eqn:E2; [|discriminate].
    rewrite (IH _ _ E2). auto.
  Qed.

  Lemma budget_worker_progress budgets d :
    (forall b, In b budgets -> forall s, exists k, first_reaching step cost b s k) ->
    exists fuel rs d', budget_worker fuel budgets d = Some (rs, d').
  Proof.
    revert d. induction budgets as [|b bs IH]; intros d H.
    - exists 0%nat, [], d. reflexivity.
    - destruct (H b (or_introl eq_refl) (d_state d)) as [n Hn].
      set (d1 := {| d_state := after n (d_state d); d_step_no := (d_step_no d + n)%nat |}).
      destruct (process_budget cost finalize b d1) as [x d2] eqn:Ep.
      destruct (IH d2) as (fuel & rs & d' & E).
      { intros b1 Hb1. apply H. right. exact Hb1. }
      exists (Nat.max n fuel), (x :: rs), d'. cbn [RunModel.budget_worker].
      rewrite (budget_run_complete b n) by (auto; lia). fold d1. rewrite Ep.
      rewrite (budget_worker_fuel bs fuel (Nat.max n fuel) d2 (rs, d')); [reflexivity|lia|exact E].
  Qed.

  (** ---- TimeRun ---- *)
  Context (tstep timeout : Z) (Htstep : 0 < tstep).
  Notation emit_slots := (emit_slots (S:=S) tstep timeout).
  Notation time_loop := (time_loop step cost tstep timeout).

  Lemma zrange_nil lo hi : hi < lo -> zrange lo hi = [].
  Proof. intros H. unfold zrange. replace (Z.to_nat (hi - lo + 1)) with 0%nat by lia. reflexivity. Qed.

  Lemma zrange_cons lo hi : lo <= hi -> zrange lo hi = lo :: zrange (lo + 1) hi.
  Proof.
    intros H. unfold zrange. replace (Z.to_nat (hi - lo + 1)) with (Datatypes.S (Z.to_nat (hi - (lo + 1) + 1))) by lia.
    cbn [seq map]. f_equal; [lia|]. rewrite <- seq_shift, map_map. apply map_ext. intros. lia.
  Qed.

  Lemma zrange_app lo mid hi :
    lo <= mid + 1 -> mid <= hi -> zrange lo mid ++ zrange (mid + 1) hi = zrange lo hi.
  Proof.
    intros H1 H2. remember (Z.to_nat (mid + 1 - lo)) as n eqn:Hn. revert lo H1 Hn.
    induction n as [|n IH]; intros lo H1 Hn.
    - rewrite (zrange_nil lo mid) by lia. replace lo with (mid + 1) by lia. reflexivity.
    - rewrite (zrange_cons lo mid), (zrange_cons lo hi) by lia. cbn. f_equal. apply IH; lia.
  Qed.

  Lemma zrange_In lo hi x : In x (zrange lo hi) <-> lo <= x <= hi.
  Proof.
    unfold zrange. rewrite in_map_iff. split.
    - intros (i & <- & Hi). apply in_seq in Hi. lia.
    - intros H. exists (Z.to_nat (x - lo)). rewrite in_seq. lia.
  Qed.

  (** slots emitted by the inner loop: those of n0+1..n0+count not past the timeout *)
  Lemma emit_slots_eq count n0 prev s :
    emit_slots count n0 prev s =
    (map (fun k => {| e_time := k * tstep; e_msg := prev; e_state := s |})
         (zrange (n0 + 1) (Z.min (n0 + Z.of_nat count) (timeout / tstep))),
     n0 + Z.of_nat count).
  Proof.
    revert n0; induction count as [|c IH]; intros n0.
    - cbn [RunModel.emit_slots]. rewrite zrange_nil by lia. cbn. f_equal. lia.
    - cbn [RunModel.emit_slots]. rewrite IH.
      assert (Hdiv : (n0 + 1) * tstep <= timeout <-> n0 + 1 <= timeout / tstep).
      { split; intros H.
        - apply Z.div_le_lower_bound; lia.
        - pose proof (Z.mul_div_le timeout tstep Htstep). nia. }
      f_equal; [|lia].
      destruct (Z.leb_spec ((n0 + 1) * tstep) timeout) as [H|H].
      + rewrite (zrange_cons (n0 + 1)) by lia. cbn [app map].
        do 3 f_equal. lia.
      + rewrite !zrange_nil by lia. reflexivity.
  Qed.

  Lemma floor_count e n0 : Z.of_nat (Z.to_nat ((e - tstep * n0) / tstep)) = Z.max 0 (e / tstep - n0).
  Proof.
    replace (e - tstep * n0) with (e + (- n0) * tstep) by lia.
    rewrite Z.div_add by lia. lia.
  Qed.

  (** number of driver steps performed *)
  Lemma time_loop_end durs e n0 prev d es d' :
    time_loop durs e n0 prev d = Some (es, d') ->
    exists n, (n <= length durs)%nat /\ d' = {| d_state := after n (d_state d); d_step_no := (d_step_no d + n)%nat |} /\ timeout <= e + fold_right Z.add 0 (firstn n durs) /\
      (forall j, (j < n)%nat -> e + fold_right Z.add 0 (firstn j durs) < timeout).
  Proof.
    revert e n0 prev d es d'; induction durs as [|dt durs IH]; intros e n0 prev [s k] es d';
      cbn [RunModel.time_loop]; destruct (Z.ltb_spec e timeout) as [H|H].
    - discriminate.
    - intros E. injection E as <- <-. exists 0%nat. cbn. rewrite Nat.add_0_r. repeat split; try lia.
    - unfold RunModel.next_step. cbn [d_state d_step_no].
      destruct (match prev with Some _ => _ | None => _ end) as [es1 n1].
      destruct (time_loop durs _ _ _ _) as [[es2 d2]|] eqn:E2; [|discriminate].
      intros E. injection E as <- <-. apply IH in E2. destruct E2 as (n & Hn & -> & H1 & H2).
      cbn [d_state d_step_no] in *. exists (Datatypes.S n). cbn [length firstn fold_right].
      repeat split; try lia.
      + cbn [RunSpec.after]. f_equal. lia.
      + intros [|j] Hj; cbn; [lia|]. specialize (H2 j ltac:(lia)). lia.
    - intros E. injection E as <- <-. exists 0%nat. cbn. rewrite Nat.add_0_r. repeat split; try lia.
  Qed.

  (** times emitted once a previous result exists and the slots are up to date *)
  Lemma time_loop_times durs e n0 prev d es d' :
    0 <= n0 -> e / tstep <= n0 ->
    time_loop durs e n0 (Some prev) d = Some (es, d') ->
    map (@e_time S) es = map (fun k => k * tstep) (zrange (n0 + 1) (timeout / tstep)).
  Proof.
    revert e n0 prev d es d'; induction durs as [|dt durs IH]; intros e n0 prev d es d' Hn Hinv;
      cbn [RunModel.time_loop]; destruct (Z.ltb_spec e timeout) as [H|H].
    - discriminate.
    - intros E. injection E as <- <-. rewrite zrange_nil; [reflexivity|].
      pose proof (Z.div_le_mono timeout e tstep Htstep H). lia.
    - destruct (next_step d) as [result d1] eqn:En.
      rewrite emit_slots_eq, floor_count.
      destruct (time_loop durs _ _ _ _) as [[es2 d2]|] eqn:E2; [|discriminate].
      intros E. injection E as <- <-.
      apply IH in E2; [|lia|lia].
      rewrite map_app, E2, map_map. cbn [e_time]. rewrite <- map_app. f_equal.
      set (n1 := n0 + Z.max 0 ((e + dt) / tstep - n0)) in *.
      destruct (Z.le_gt_cases n1 (timeout / tstep)).
      + rewrite Z.min_l by lia. apply zrange_app; lia.
      + rewrite Z.min_r by lia. rewrite (zrange_nil (n1 + 1)) by lia. rewrite app_nil_r. reflexivity.
    - intros E. injection E as <- <-. rewrite zrange_nil; [reflexivity|].
      pose proof (Z.div_le_mono timeout e tstep Htstep H). lia.
  Qed.

  Lemma time_run_times durs d es d' :
    time_run step cost tstep timeout durs d = Some (es, d') ->
    exists n, (n <= length durs)%nat /\ d' = {| d_state := after n (d_state d); d_step_no := (d_step_no d + n)%nat |} /\ timeout <= fold_right Z.add 0 (firstn n durs) /\
      (forall j, (j < n)%nat -> fold_right Z.add 0 (firstn j durs) < timeout) /\
      map (@e_time S) es =
        if (n =? 1)%nat then [] else map (fun k => k * tstep) (zrange 1 (timeout / tstep)).
  Proof.
    unfold time_run. intros E.
    pose proof (time_loop_end _ _ _ _ _ _ _ E) as (n & Hn & Hd & H1 & H2).
    exists n. split; [exact Hn|]. split; [exact Hd|]. cbn in H1, H2.
    split; [exact H1|]. split; [exact H2|].
    destruct n as [|[|n]]; cbn [Nat.eqb].
    - (* no step: timeout <= 0 *)
      cbn in H1. destruct durs as [|dt durs]; cbn [RunModel.time_loop] in E;
        destruct (Z.ltb_spec 0 timeout); try lia; injection E as <- <-;
        (rewrite zrange_nil; [reflexivity|]);
        assert (timeout / tstep <= 0) by (apply Z.div_le_upper_bound; lia); lia.
    - destruct durs as [|dt durs]; [cbn in Hn; lia|]. cbn [RunModel.time_loop] in E.
      destruct (Z.ltb_spec 0 timeout); [|specialize (H2 0%nat ltac:(lia)); cbn in H2; lia].
      destruct (next_step d) as [r d1]. cbn in H1.
      replace (0 + dt) with dt in E by lia.
      destruct durs as [|dt2 durs]; cbn [RunModel.time_loop] in E;
        destruct (Z.ltb_spec dt timeout); try lia; injection E as <- <-; reflexivity.
    - destruct durs as [|dt durs]; [cbn in Hn; lia|].
      destruct durs as [|dt2 durs]; [cbn in Hn; lia|].
      cbn [RunModel.time_loop] in E.
      pose proof (H2 0%nat ltac:(lia)) as Ha. pose proof (H2 1%nat ltac:(lia)) as Hb. cbn in Ha, Hb.
      destruct (Z.ltb_spec 0 timeout); [|lia].
      destruct (next_step d) as [r1 d1].
      replace (0 + dt) with dt in E by lia.
      destruct (Z.ltb_spec dt timeout); [|lia].
      destruct (next_step d1) as [r2 d2].
      rewrite emit_slots_eq, floor_count in E.
      destruct (time_loop durs _ _ _ _) as [[es2 d3]|] eqn:E2; [|discriminate].
      cbn [app] in E. injection E as <- <-.
      apply time_loop_times in E2; [|lia|lia].
      rewrite map_app, E2, map_map. cbn [e_time]. rewrite <- map_app. f_equal.
      set (n1 := 0 + Z.max 0 ((dt + dt2) / tstep - 0)) in *.
      assert (0 <= timeout / tstep) by (apply Z.div_pos; lia).
      destruct (Z.le_gt_cases n1 (timeout / tstep)).
      + rewrite Z.min_l by lia. apply (zrange_app 1); lia.
      + rewrite Z.min_r by lia. rewrite (zrange_nil (n1 + 1)) by lia. rewrite app_nil_r. reflexivity.
  Qed.

  (** freshness: which step's progress a message carries and which state the worker sees *)
  Definition emission_ok (durs : list Z) (s : S) (k0 : nat) (em : emission S) : Prop :=
    exists k, e_msg em = {| p_step_no := (k0 + k)%nat; p_cost := cost (after (Datatypes.S k) s) |} /\ (Datatypes.S k < length durs)%nat /\ e_time em <= finish_time durs (Datatypes.S k) /\
      (k = 0%nat \/ finish_time durs k < e_time em) /\
      e_state em = after (Datatypes.S (Datatypes.S k)) s.

  Lemma finish_time_app durs1 durs2 k :
    length durs1 = Datatypes.S k -> finish_time (durs1 ++ durs2) k = fold_right Z.add 0 durs1.
  Proof.
    intros Hl. unfold finish_time. rewrite firstn_app, Hl, Nat.sub_diag, <- Hl, firstn_all. cbn.
    rewrite app_nil_r. reflexivity.
  Qed.

  Lemma fold_add_app l1 l2 : fold_right Z.add 0 (l1 ++ l2) = fold_right Z.add 0 l1 + fold_right Z.add 0 l2.
  Proof. induction l1 as [|x l1 IH]; cbn; lia. Qed.

  Lemma time_loop_fresh durs s k0 durs2 : forall durs1 k e n0 prev d es d',
    durs = durs1 ++ durs2 -> length durs1 = Datatypes.S k ->
    e = fold_right Z.add 0 durs1 ->
    prev = {| p_step_no := (k0 + k)%nat; p_cost := cost (after (Datatypes.S k) s) |} ->
    d = {| d_state := after (Datatypes.S k) s; d_step_no := (k0 + Datatypes.S k)%nat |} ->
    0 <= n0 -> (k = 0%nat \/ e / tstep <= n0) ->
    time_loop durs2 e n0 (Some prev) d = Some (es, d') ->
    Forall (emission_ok durs s k0) es.
  Proof.
    induction durs2 as [|dt durs2 IH]; intros durs1 k e n0 prev d es d' Hdurs Hl He Hprev Hd Hn Hinv;
      cbn [RunModel.time_loop]; destruct (Z.ltb_spec e timeout) as [H|H].
    - discriminate.
    - intros E. injection E as <- <-. constructor.
    - unfold RunModel.next_step. rewrite Hd. cbn [d_state d_step_no].
      rewrite emit_slots_eq, floor_count.
      destruct (time_loop durs2 _ _ _ _) as [[es2 d2]|] eqn:E2; [|discriminate].
      intros E. injection E as <- <-.
      apply Forall_app. split.
      + apply Forall_forall. intros em Hem. apply in_map_iff in Hem. destruct Hem as (j & <- & Hj).
        apply zrange_In in Hj. exists k. cbn [e_msg e_time e_state].
        split; [exact Hprev|].
        split; [rewrite Hdurs, app_length; cbn; lia|].
        assert (Hft : finish_time durs (Datatypes.S k) = e + dt).
        { rewrite Hdurs. replace (durs1 ++ dt :: durs2) with ((durs1 ++ [dt]) ++ durs2)
            by (rewrite <- app_assoc; reflexivity).
          rewrite finish_time_app by (rewrite app_length; cbn; lia).
          rewrite fold_add_app. cbn. lia. }
        assert (Hft0 : finish_time durs k = e).
        { rewrite Hdurs, finish_time_app by exact Hl. symmetry. exact He. }
        rewrite Hft, Hft0.
        split.
        { assert (j <= (e + dt) / tstep) by lia.
          pose proof (Z.mul_div_le (e + dt) tstep Htstep). nia. }
        split.
        { destruct Hinv as [Hk|Hinv]; [left; exact Hk|right].
          pose proof (Z.mul_succ_div_gt e tstep Htstep). nia. }
        rewrite (after_S (Datatypes.S k)). reflexivity.
      + eapply (IH (durs1 ++ [dt]) (Datatypes.S k)); [| | | | | | |exact E2].
        * rewrite <- app_assoc. exact Hdurs.
        * rewrite app_length. cbn. lia.
        * rewrite fold_add_app. cbn. lia.
        * rewrite (after_S (Datatypes.S k)). reflexivity.
        * rewrite (after_S (Datatypes.S k)). f_equal. lia.
        * lia.
        * right. lia.
    - intros E. injection E as <- <-. constructor.
  Qed.

  Lemma time_run_fresh durs s k0 es d' :
    time_run step cost tstep timeout durs {| d_state := s; d_step_no := k0 |} = Some (es, d') ->
    Forall (emission_ok durs s k0) es.
  Proof.
    unfold time_run. destruct durs as [|dt durs]; cbn [RunModel.time_loop];
      destruct (Z.ltb_spec 0 timeout) as [H|H]; try discriminate;
      try (intros E; injection E as <- <-; constructor).
    unfold RunModel.next_step. cbn [d_state d_step_no].
    destruct (time_loop durs _ _ _ _) as [[es2 d2]|] eqn:E2; [|discriminate].
    intros E. injection E as <- <-. cbn [app].
    eapply (time_loop_fresh (dt :: durs) s k0 durs [dt] 0%nat); [| | | | | | |exact E2];
      try reflexivity; try lia.
    - cbn. lia.
    - cbn. f_equal. lia.
    - cbn. f_equal. lia.
  Qed.

  Lemma time_run_progress durs n d :
    (n <= length durs)%nat -> timeout <= fold_right Z.add 0 (firstn n durs) ->
    exists es d', time_run step cost tstep timeout durs d = Some (es, d').
  Proof.
    unfold time_run. assert (G : forall durs n e n0 prev d, (n <= length durs)%nat ->
      timeout <= e + fold_right Z.add 0 (firstn n durs) ->
      exists es d', time_loop durs e n0 prev d = Some (es, d')).
    { clear. induction durs as [|dt durs IH]; intros n e n0 prev d Hn Ht; cbn [RunModel.time_loop];
        destruct (Z.ltb_spec e timeout) as [H|H]; eauto.
      - destruct n; cbn in *; lia.
      - destruct (next_step d) as [r d1]. destruct (match prev with Some _ => _ | None => _ end) as [es1 n1].
        destruct n as [|n]; [cbn in Ht; lia|]. cbn [firstn fold_right length] in *.
        destruct (IH n (e + dt) n1 (Some r) d1) as (es & d' & ->); [lia|lia|]. eauto. }
    intros Hn Ht. apply (G durs n); [exact Hn|]. lia.
  Qed.
End Runs.

Lemma time_run_complete {S : Type} (step : S -> S) (cost : S -> Z) tstep timeout :
  0 < tstep -> forall durs d es d',
  time_run step cost tstep timeout durs d = Some (es, d') ->
  d_step_no d' <> (d_step_no d + 1)%nat ->
  forall k, 1 <= k -> k * tstep <= timeout -> exists em, In em es /\ e_time em = k * tstep.
Proof.
  intros Ht durs d es d' E Hne k Hk Hkt.
  destruct (time_run_times step cost tstep timeout Ht _ _ _ _ E) as (n & _ & -> & _ & _ & Hes).
  cbn in Hne. destruct (Nat.eqb_spec n 1) as [->|_]; [congruence|].
  assert (Hin : In (k * tstep) (map (@e_time S) es)).
  { rewrite Hes. apply in_map_iff. exists k. split; [reflexivity|]. apply zrange_In.
    split; [exact Hk|]. apply Z.div_le_lower_bound; lia. }
  apply in_map_iff in Hin. destruct Hin as (em & E1 & E2). exists em. auto.
Qed.

Lemma time_run_complete_refuted :
  exists (S : Type) (step : S -> S) (cost : S -> Z) tstep timeout durs d es d' k,
    0 < tstep /\ time_run step cost tstep timeout durs d = Some (es, d') /\
    1 <= k /\ k * tstep <= timeout /\ forall em, In em es -> e_time em <> k * tstep.
Proof.
  exists nat, Datatypes.S, Z.of_nat, 10, 50, [100], {| d_state := 0%nat; d_step_no := 0 |}, [],
    {| d_state := 1%nat; d_step_no := 1 |}, 3.
  repeat split; try lia. intros em [].
Qed.

Lemma time_worker_state {S P : Type} (step : S -> S) (cost : S -> Z) (finalize : S -> S * P) tstep timeout :
  0 < tstep -> forall durs s k0 rs,
  time_worker step cost finalize tstep timeout durs {| d_state := s; d_step_no := k0 |} = Some rs ->
  Forall (fun r => exists j, (1 <= j < length durs)%nat /\
    st_population r = snd (finalize (after step (Datatypes.S j) s)) /\
    st_cost r = cost (after step (Datatypes.S j) s) /\
    st_name r <= finish_time durs j /\
    (j = 1%nat \/ finish_time durs (j - 1) < st_name r)) rs.
Proof.
  intros Ht durs s k0 rs. unfold time_worker.
  destruct (time_run step cost tstep timeout durs _) as [[es d']|] eqn:E; [|discriminate].
  intros H. injection H as <-.
  pose proof (time_run_fresh step cost tstep timeout Ht durs s k0 es d' E) as Hf.
  apply Forall_forall. intros r Hr. apply in_map_iff in Hr. destruct Hr as (em & <- & Hem).
  rewrite Forall_forall in Hf. destruct (Hf em Hem) as (k & _ & Hk & H1 & H2 & H3).
  exists (Datatypes.S k). unfold time_worker_store. cbn [st_name st_population st_cost]. rewrite H3.
  cbn [Nat.sub]. rewrite Nat.sub_0_r.
  repeat split; auto; try lia.
Qed.

Lemma time_worker_refuted :
  exists (S P : Type) (step : S -> S) (cost : S -> Z) (finalize : S -> S * P) tstep timeout durs s rs r,
    0 < tstep /\ Forall (fun dt => 0 < dt) durs /\
    time_worker step cost finalize tstep timeout durs {| d_state := s; d_step_no := 0 |} = Some rs /\
    In r rs /\
    forall k, (k <= length durs)%nat -> st_population r = snd (finalize (after step k s)) ->
      (0 < k)%nat /\ st_name r < finish_time durs (k - 1).
Proof.
  exists nat, nat, Datatypes.S, Z.of_nat, (fun s => (s, s)), 10, 20, [4; 100], 0%nat.
  eexists _, _. split; [lia|]. split; [repeat constructor|]. split; [vm_compute; reflexivity|].
  split; [left; reflexivity|].
  intros k Hk. cbn [st_population st_name snd]. intros H.
  destruct k as [|[|[|k]]]; cbn in *; try discriminate; try lia.
Qed.
