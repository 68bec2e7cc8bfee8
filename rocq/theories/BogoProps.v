(** Properties of BOGO: C44. *)
From Verif Require Import Spec Base DomModel DomProofs BogoModel BogoProofs.

(** C44, refuted - inserting a dominated point removes the point that dominates it: after inserting
    (0) and then (1), with the identity as objective, the archive is empty; one more dominated or equal
    point and it holds that point only. *)
Theorem C44_archive_is_the_front_refuted :
  exists (f : vec -> vec) (population : list vec),
    (forall v, length (f v) = 1) /\ length population = 2 /\
    bogo_finalized (bogo_init f population) = [] /\
    exists (draw worse : vec), bogo_finalized (bogo_steps f [draw] (bogo_init f population)) = [worse] /\
      exists v, In v population /\ pareto_dom (f v) (f worse).
Proof.
  exists (fun v => [hd 0%Z v]), [[0]; [1]]%Z. split; [reflexivity|]. split; [reflexivity|]. split; [vm_compute; reflexivity|].
  exists [2]%Z, [2]%Z. split; [vm_compute; reflexivity|]. exists [0]%Z. split; [now left|]. apply dominates_spec; reflexivity.
Qed.
Print Assumptions C44_archive_is_the_front_refuted.

(** C44, partial - one insertion into an archive without dominated members: a newcomer that no member
    dominates replaces exactly the members it dominates; otherwise exactly one member is lost, the
    first one that dominates the newcomer, and the newcomer is not stored. *)
Theorem C44_insertion_partial :
  forall (d : nat) (archive : list (vec * vec)) (new : vec * vec),
    all_dim d snd archive -> length (snd new) = d ->
    (forall x y, In x archive -> In y archive -> ~ pareto_dom (snd x) (snd y)) ->
    ((forall x, In x archive -> ~ pareto_dom (snd x) (snd new)) ->
       exists kept, refresh_archive archive new = kept ++ [new] /\
         forall x, In x kept <-> In x archive /\ ~ pareto_dom (snd new) (snd x)) /\
    ((exists x, In x archive /\ pareto_dom (snd x) (snd new)) ->
       exists before a after, archive = before ++ a :: after /\ refresh_archive archive new = before ++ after /\
         pareto_dom (snd a) (snd new) /\ forall x, In x before -> ~ pareto_dom (snd x) (snd new)).
Proof.
  intros d archive new HD Hn AC. unfold refresh_archive.
  destruct (refresh_cases d new Hn archive HD AC) as [(be & a & af & Ea & Ha & Hb & ->)|(Hno & ->)].
  - split; [|intros _; exists be, a, af; auto]. intros H. exfalso. apply (H a); [rewrite Ea; apply in_or_app; right; now left | exact Ha].
  - split; [|intros (x & Hx & H); exfalso; exact (Hno x Hx H)]. intros _. eexists. split; [reflexivity|].
    intros x. rewrite filter_In. split; intros (Hx & H); (split; [exact Hx|]).
    + apply negb_true_iff in H. rewrite <- dominates_spec; [congruence|]. rewrite Hn. symmetry. now apply HD.
    + apply negb_true_iff, not_true_is_false. rewrite dominates_spec; [exact H|]. rewrite Hn. symmetry. now apply HD.
Qed.
Print Assumptions C44_insertion_partial.

(** C44, partial - whole runs: archived points are points of the run, none dominates another, and the
    cost is the number of points evaluated. *)
Theorem C44_run_partial :
  forall (f : vec -> vec) (d : nat) (population draws : list vec), (forall v, length (f v) = d) ->
    let s := bogo_steps f draws (bogo_init f population) in
    (forall v, In v (bogo_finalized s) -> In v (population ++ draws)) /\
    (forall v w, In v (bogo_finalized s) -> In w (bogo_finalized s) -> ~ pareto_dom (f v) (f w)) /\
    b_cost s = length population + length draws.
Proof.
  intros f d population draws Hd s.
  destruct (bogo_fold_inv f d Hd draws population _ (bogo_run_inv f d Hd population)) as (H1 & H2 & H3). fold (bogo_steps f draws (bogo_init f population)) in *. fold s in H1, H2, H3.
  split; [|split].
  - intros v Hv. unfold bogo_finalized in Hv. apply in_map_iff in Hv. destruct Hv as (x & <- & Hx). now apply H1.
  - intros v w Hv Hw. unfold bogo_finalized in Hv, Hw. apply in_map_iff in Hv, Hw. destruct Hv as (x & <- & Hx), Hw as (y & <- & Hy).
    destruct (H1 x Hx) as (_ & <-), (H1 y Hy) as (_ & <-). auto.
  - rewrite H3, app_length. reflexivity.
Qed.
Print Assumptions C44_run_partial.

(** C44, partial - if no point is dominated by one drawn before it, the result is exactly the set of
    points no other point dominates. *)
Theorem C44_no_dominated_draw_partial :
  forall (f : vec -> vec) (d : nat) (population draws : list vec), (forall v, length (f v) = d) ->
    (forall before v after, population ++ draws = before ++ v :: after -> forall w, In w before -> ~ pareto_dom (f w) (f v)) ->
    forall v, In v (bogo_finalized (bogo_steps f draws (bogo_init f population))) <->
      In v (population ++ draws) /\ forall w, In w (population ++ draws) -> ~ pareto_dom (f w) (f v).
Proof.
  intros f d population draws Hd HN v. unfold bogo_steps, bogo_init. rewrite <- fold_left_app.
  assert (X : bogo_exact f ([] ++ population ++ draws) (fold_left (bogo_add f) (population ++ draws) {| b_archive := []; b_cost := 0 |})).
  { apply (bogo_fold_exact f d Hd).
    - split; [intros x []|]. split; [intros x y [] | reflexivity].
    - intros x. cbn. split; [intros [] | intros (_ & [] & _)].
    - intros w [].
    - intros be w af E u Hu. exact (HN be w af E u Hu). }
  cbn [app] in X. unfold bogo_finalized. rewrite in_map_iff. split.
  - intros (x & <- & Hx). apply X in Hx. tauto.
  - intros (H1 & H2). exists (v, f v). split; [reflexivity|]. apply X. auto.
Qed.
Print Assumptions C44_no_dominated_draw_partial.

(** Three points, the last one dominating the first: two are left. *)
Example C44_example :
  let f v := v in let P := [[4; 1]; [1; 5]; [3; 1]]%Z in
  (forall before v after, P = before ++ v :: after -> forall w, In w before -> ~ pareto_dom (f w) (f v)) /\
  bogo_finalized (bogo_steps f [[3; 1]]%Z (bogo_init f [[4; 1]; [1; 5]]%Z)) = [[1; 5]; [3; 1]]%Z.
Proof.
  split; [|vm_compute; reflexivity]. intros be v af E w Hw.
  destruct be as [|a [|b [|c [|? ?]]]]; cbn in E; try discriminate; injection E; intros; subst; cbn in Hw; [contradiction | |].
  - destruct Hw as [<-|[]]. rewrite <- dominates_spec by reflexivity. vm_compute. discriminate.
  - destruct Hw as [<-|[<-|[]]]; rewrite <- dominates_spec by reflexivity; vm_compute; discriminate.
Qed.
