(** The cost a node has recorded is what its driver has spent. *)
From Verif Require Import Spec Base VarModel VarProofs HgsModel HgsSpec HgsProofs DhgsModel DhgsSpec DhgsNet DhgsGather DhgsOps DhgsRelease DhgsPhase DhgsLife.
From Coq Require Import QArith Permutation Sorted.
Local Open Scope nat_scope.

Section Cost.
  Context {drv draw : Type}.
  Variable dnew : nat -> draw -> list vec -> drv.
  Variable dstep : draw -> drv -> drv.
  Variable dcost : drv -> Z.
  Variable dfinal : draw -> drv -> drv * list vec.
  Variable ddelegates : drv -> list vec.
  Variable hv_of : list vec -> Q.
  Variable EPSILON : Q.
  Variable C : config.
  Variable W : nat -> nat -> ndraws draw.
  Variable Wnew : nat -> draw.
  Notation system := (system drv).
  Notation node := (node drv).
  Notation until := (until dnew dstep dcost dfinal ddelegates hv_of EPSILON C W Wnew).
  Notation answered := (answered dnew dstep dcost dfinal ddelegates hv_of EPSILON C W Wnew).
  Notation life := (life dnew dstep dcost dfinal ddelegates hv_of EPSILON C W Wnew).
  Notation state := (state dnew C Wnew).
  Notation ran := (ran dstep dcost dfinal ddelegates hv_of C).
  Notation turns := (turns dnew C Wnew).
  Implicit Types (c : system) (ns : list node) (n : node).

  Hypothesis Htop : max_level C <= 2.
  Hypothesis Hlen : forall l, l <= max_level C -> 0 < nth l (metaepoch_lens C) 0.
  Hypothesis Hnew : forall lv w pop, dcost (dnew lv w pop) = 0%Z.
  Hypothesis Hfinal : forall w d, dcost (fst (dfinal w d)) = dcost d.

  Definition paid n : Prop := current_cost n = dcost (driver n).

  Lemma ran_paid n n' : level n <= max_level C -> paid n -> ran n n' -> paid n'.
  Proof.
    unfold DhgsSpec.ran, paid. intros Hl P. destruct (alive n); [|now intros ->].
    intros [(ds & d & w & dl & E1 & E2 & E3 & E5 & _) _ _ _ _].
    injection E3 as E3. rewrite E5. destruct (Nat.eqb_spec (nth (level n) (metaepoch_lens C) 0) 0); [specialize (Hlen _ Hl); lia|].
    rewrite <- (Hfinal w d), E3. reflexivity.
  Qed.
  Lemma trimmed_paid r n n' : paid n -> trimmed EPSILON r n n' -> paid n'.
  Proof. unfold paid. intros P [(_ & _ & ->)|(_ & ->)]; exact P. Qed.
  Lemma turns_paid order ns seeds ns' seeds' : turns order ns seeds ns' seeds' -> Forall paid ns -> Forall paid ns'.
  Proof.
    induction 1 as [|order i ns seeds ns1 seeds1 ns' seeds' _ IH T]; [auto|]. intros P. specialize (IH P).
    destruct T as (n & ps & Hn & _ & -> & _). rewrite Forall_forall in IH. apply Forall_forall. intros x Hx. apply In_nth_error in Hx. destruct Hx as (j & Hj).
    destruct (grown_inv dnew Wnew _ _ _ _ _ _ _ Hn Hj) as [(_ & y & Hy & ->)|(_ & p & _ & ->)].
    - apply nth_error_In in Hy. exact (IH y Hy).
    - unfold paid, fresh_node. cbn. now rewrite Hnew.
  Qed.
  Lemma pointwise ns ns' (P : node -> Prop) (T : node -> node -> Prop) : length ns' = length ns -> (forall n n', In n ns -> P n -> T n n' -> P n') ->
    (forall i n, nth_error ns i = Some n -> exists n', nth_error ns' i = Some n' /\ T n n') -> Forall P ns -> Forall P ns'.
  Proof.
    intros L H A F. rewrite Forall_forall in *. intros x Hx. apply In_nth_error in Hx. destruct Hx as (i & Hi).
    assert (Li : i < length ns) by (rewrite <- L; apply nth_error_Some; congruence).
    destruct (nth_error ns i) as [n|] eqn:E; [|apply nth_error_None in E; lia]. destruct (A i n E) as (n' & E' & Tn).
    rewrite Hi in E'. injection E' as <-. apply nth_error_In in E. eauto.
  Qed.

  Lemma answered_paid pc k p c c' (P : system -> Prop) : until (fun c' => answers c' = answers c) P (ask _ k p c) -> answered k p c c' ->
    (forall c1, P c1 -> exists ns R, state pc c1 ns R /\ Forall paid ns) -> exists ns R, state pc c' ns R /\ Forall paid ns.
  Proof.
    intros U (Rn & Le) H. destruct (until_runs _ _ _ _ _ _ _ _ _ _ _ _ _ _ U Rn) as [E|(c1 & Pc & R1)]; [rewrite E in Le; lia|].
    destruct (H c1 Pc) as (ns & R & St & F). exists ns, R. split; [|exact F].
    destruct (calm_runs _ _ _ _ _ _ _ _ _ _ _ _ _ _ (proj1 St) R1) as (Cm & Es & _). eapply state_sup; eauto.
  Qed.

  Theorem life_paid pc c : life pc c -> exists ns R, state pc c ns R /\ Forall paid ns.
  Proof.
    induction 1 as [ratios pop Lr|pc c c' _ (ns & R & St & F) D|k c c' _ (ns & R & St & F) A|k lv c c' _ (ns & R & St & F) A|k c c' _ (ns & R & St & F) A|k c c' _ (ns & R & St & F) A|
                    k c c' _ (ns & R & St & F) A|k c c' _ (ns & R & St & F) A|k c c' _ (ns & R & St & F) A].
    - do 2 eexists. split; [apply start_state; assumption|]. constructor; [|constructor]. unfold paid, fresh_node. cbn. now rewrite Hnew.
    - exists ns, R. split; [|exact F]. destruct (calm_deliver _ _ _ _ _ _ _ _ _ _ _ _ _ _ (proj1 St) D) as (c2 & [= <-] & Cm & Es & _). eapply state_sup; eauto.
    - eapply answered_paid; [eapply population_life; [exact Htop|exact St]|exact A|]. intros c1 (X & _). eauto.
    - eapply answered_paid; [eapply status_life; [exact Htop|exact St]|exact A|]. intros c1 (X & _). eauto.
    - eapply answered_paid; [eapply metaepoch_life; [exact Htop|exact Hlen|exact St]|exact A|]. intros c1 (ns' & X & L & _ & T & _). exists ns'. eexists. split; [exact X|].
      eapply pointwise; [exact L| |exact T|exact F]. intros n n' Hn P Rn. eapply ran_paid; eauto.
      destruct St as (_ & Iv & _). apply In_nth_error in Hn. destruct Hn as (i & Hi). eapply iv_level; eauto.
    - eapply answered_paid; [eapply trim_life; [exact Htop|exact St]|exact A|]. intros c1 (ns' & X & L & _ & _ & _ & T). exists ns'. eexists. split; [exact X|].
      eapply pointwise; [exact L| |exact T|exact F]. intros n n' Hn P Tn. eapply trimmed_paid; eauto.
    - eapply answered_paid; [eapply redundant_life; [exact Htop|exact St]|exact A|]. intros c1 (X & _). eauto.
    - eapply answered_paid; [eapply release_life; [exact Htop|exact St]|exact A|]. intros c1 (ns' & seeds & X & T & _). exists ns'. eexists. split; [exact X|].
      eapply turns_paid; eauto.
    - eapply answered_paid; [eapply revive_life; [exact Htop|exact St]|exact A|]. intros c1 (ns' & X & _ & _ & _ & T). exists ns'. eexists. split; [exact X|].
      destruct (existsb (@alive drv) ns); [destruct T as (-> & _); exact F|]. destruct T as (-> & _).
      apply Forall_forall. intros x Hx. apply in_map_iff in Hx. destruct Hx as (n & <- & Hn). rewrite Forall_forall in F. exact (F n Hn).
  Qed.
End Cost.
