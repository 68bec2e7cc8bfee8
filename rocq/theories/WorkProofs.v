(** Proofs about the job queue, stored results and shared state. *)
From Verif Require Import Spec Base VarModel HgsModel HgsSpec HgsProofs HgsTrimProofs HgsFacts WorkModel WorkSpec.
From Coq Require Import QArith Qfield.
Local Open Scope nat_scope.

Section Queue.
  Context {case : Type} (worker_run : case -> option Q).
  Notation queue := (queue case worker_run).

  Lemma queue_fails before c after ex rs :
    (forall x, In x before -> worker_run x <> None) -> worker_run c = None ->
    let q := queue (before ++ c :: after) ex rs in
    q_executed q = ex ++ before ++ [c] /\ q_ending q = TypeErrorOnNone.
  Proof.
    revert ex rs. induction before as [|b before IH]; intros ex rs Hb Hc; cbn [app].
    - cbn [WorkModel.queue]. rewrite Hc. cbn. auto.
    - cbn [WorkModel.queue]. destruct (worker_run b) eqn:E; [|exfalso; apply (Hb b); [left; reflexivity|exact E]].
      specialize (IH (ex ++ [b]) (rs ++ [Some q]) (fun x Hx => Hb x (or_intror Hx)) Hc). cbv zeta in IH |- *.
      destruct IH as [-> ->]. rewrite <- app_assoc. auto.
  Qed.

  Lemma queue_done cases ex rs : (forall x, In x cases -> worker_run x <> None) ->
    let q := queue cases ex rs in
    q_executed q = ex ++ cases /\ q_results q = rs ++ map worker_run cases /\ q_ending q = Completed.
  Proof.
    revert ex rs. induction cases as [|b cases IH]; intros ex rs Hb.
    - cbn. rewrite !app_nil_r. auto.
    - cbn [WorkModel.queue]. destruct (worker_run b) eqn:E; [|exfalso; apply (Hb b); [left; reflexivity|exact E]].
      specialize (IH (ex ++ [b]) (rs ++ [Some q]) (fun x Hx => Hb x (or_intror Hx))). cbv zeta in IH |- *.
      destruct IH as (-> & -> & ->). rewrite <- !app_assoc. cbn [app map]. rewrite E. auto.
  Qed.

  Lemma no_errors cases : (forall x, In x cases -> worker_run x <> None) ->
    s_errors (log_summary case (map worker_run cases) cases) = [].
  Proof.
    unfold log_summary. cbn [s_errors]. induction cases as [|c cases IH]; intros H; [reflexivity|].
    cbn [map combine flat_map fst snd]. destruct (worker_run c) eqn:E; [|exfalso; apply (H c); [left; reflexivity|exact E]].
    apply IH. intros x Hx. apply H. right. exact Hx.
  Qed.
End Queue.

Lemma finalized_members d : forall x, In x (fst (iterate (finalized d))) <-> member d x.
Proof.
  revert d. fix F 1. intros [l|ns|is] x; cbn [finalized iterate fst].
  - split; [constructor; assumption|]. intros H. inversion H; assumption.
  - rewrite in_concat. split.
    + intros (l & Hl & Hx). exact (in_node ns l x Hl Hx).
    + intros H. inversion H; subst. eauto.
  - induction is as [|i is IH]; cbn [map concat].
    + split; [intros []|]. intros H. inversion H as [| |? i ? Hi Hm]; subst. destruct Hi.
    + rewrite in_app_iff, IH, (F i). split.
      * intros [H|H]; [exact (in_island (i :: is) i x (or_introl eq_refl) H)|].
        inversion H as [| |? j ? Hi Hm]; subst. exact (in_island (i :: is) j x (or_intror Hi) Hm).
      * intros H. inversion H as [| |? j ? Hi Hm]; subst. destruct Hi as [<-|Hi]; [left; exact Hm|right; exact (in_island is j x Hi Hm)].
Qed.

Lemma pairs fitnesses xs :
  Forall2 (fun x fs => Forall2 (fun (f : vec -> Z) y => y = f x) fitnesses fs) xs
    (map (fun x => map (fun fit => fit x) fitnesses) xs).
Proof.
  induction xs as [|x xs IH]; cbn [map]; constructor; [|exact IH].
  clear. induction fitnesses; cbn; constructor; auto.
Qed.

Section Session.
  Variables drv draw : Type.
  Variable dnew : nat -> draw -> list vec -> option drv.
  Variable dstep : draw -> drv -> option drv.
  Variable dcost : drv -> Z.
  Variable dfinal : draw -> drv -> option (drv * list vec).
  Variable ddelegates : drv -> option (list vec).
  Variable hv_of : list vec -> Q.
  Variable raw : Z -> Z -> Z -> Z -> Z.
  Variable EPSILON : Q.
  Variable C : config.
  Notation reachable := (reachable dnew dstep dcost dfinal ddelegates hv_of raw EPSILON C).
  Notation hgs_run := (hgs_run drv draw dnew dstep dcost dfinal ddelegates hv_of raw EPSILON C).
  Notation run_hgs := (run_hgs drv draw dnew dstep dcost dfinal ddelegates hv_of raw EPSILON C).
  Notation session := (session drv draw dnew dstep dcost dfinal ddelegates hv_of raw EPSILON C).

  Lemma halved_refl r : halved 0 r r.
  Proof.
    split; [reflexivity|]. intros i. destruct (i <? 3); [|reflexivity]. change (inject_Z (2 ^ Z.of_nat 0)) with 1%Q. field.
  Qed.

  Lemma halved_once a b c r : halved 1 (a :: b :: c :: r) (a / 2 :: b / 2 :: c / 2 :: r)%Q.
  Proof. split; [reflexivity|]. intros [|[|[|i]]]; reflexivity. Qed.

  Lemma halved_trans j k r r' r'' : halved j r r' -> halved k r' r'' -> halved (j + k) r r''.
  Proof.
    intros [L H] [L' H']. split; [congruence|]. intros i. specialize (H i). specialize (H' i). rewrite H'.
    destruct (i <? 3); [|exact H]. rewrite H, Nat2Z.inj_add, Z.pow_add_r, inject_Z_mult by lia.
    field. split; unfold Qeq; cbn; rewrite Z.mul_1_r; apply Z.pow_nonzero; lia.
  Qed.

  Lemma steps_halve Ds s s' : reachable s -> hgs_run Ds s = Ok s' ->
    exists k, k <= length Ds /\ halved k (min_progress_ratio s) (min_progress_ratio s').
  Proof.
    revert s. induction Ds as [|D Ds IH]; intros s R H; unfold HgsModel.hgs_run in H; cbn [fold_ok] in H.
    - injection H as <-. exists 0. split; [lia|apply halved_refl].
    - destruct (hgs_step _ _ _ _ _ _ _ _ _ _ _ s D) as [s1| |] eqn:E; cbn [bind] in H; try discriminate.
      assert (R1 : reachable s1) by (eapply reach_step; eassumption).
      destruct (IH s1 R1 H) as (k & Hk & Hv).
      destruct (ratios _ _ _ _ _ _ _ _ _ _ _ s D s1 R E) as [Eq|(a & b & c & r & E1 & E2)].
      + exists k. split; [cbn; lia|]. rewrite <- Eq. exact Hv.
      + exists (S k). split; [cbn; lia|]. apply (halved_trans 1 k _ (min_progress_ratio s1)); [|exact Hv].
        rewrite E1, E2. apply halved_once.
  Qed.
End Session.
