(** C120-C122: the Pareto dominance indicator and its caches. *)
From Coq Require Import QArith String List.
From Verif Require Import Spec DomModel MetModel PoolModel PoolSpec PoolProofs.
Local Open Scope list_scope. Local Open Scope nat_scope.

(** C120. Whatever results were added or rewritten since, whatever was evaluated before, and even if an
    evaluation was interrupted while it removed old files: an evaluation of any of the results raises nothing,
    and the values are those of the results that are on disk now. *)
Theorem C120_indicator_is_current :
  forall (ID : Type) (id_eqb : ID -> ID -> bool), (forall i j, id_eqb i j = true <-> i = j) ->
  forall (m : nat) (d : disk ID) (rs : list (ID * (key * list vec))),
    reached ID id_eqb m d -> incl rs (results d) ->
    exists d' qs, evaluate ID id_eqb d rs = Some (d', qs) /\ Forall2 (current_indicator ID (results d)) rs qs.
Proof. exact evaluate_current. Qed.
Print Assumptions C120_indicator_is_current.

(** Two results, evaluated; a third one with the same run number appears, the first is evaluated again. *)
Definition r1 : nat * (key * list vec) := (1, (("500.pickle"%string, 0), [[1; 4]; [3; 3]]%Z)).
Definition r2 : nat * (key * list vec) := (2, (("600.pickle"%string, 0), [[2; 2]]%Z)).
Definition r3 : nat * (key * list vec) := (3, (("500.pickle"%string, 0), [[2; 2]; [0; 9]]%Z)).
Definition before : disk nat := {| results := [r1; r2]; file := Missing; metrics := [] |}.
Lemma valid2 : valid_results nat 2 [r1; r2].
Proof.
  split; [repeat constructor; cbn; intuition lia|].
  intros r [<-|[<-|[]]]; (split; [discriminate|]); cbn; intros v Hv; intuition (subst; reflexivity).
Qed.
Lemma valid3 : valid_results nat 2 [r1; r3; r2].
Proof.
  split; [repeat constructor; cbn; intuition lia|].
  intros r [<-|[<-|[<-|[]]]]; (split; [discriminate|]); cbn; intros v Hv; intuition (subst; reflexivity).
Qed.
Example C120_example :
  exists d1 d2, evaluate nat Nat.eqb before [r1; r2] = Some (d1, [2 # 2; 1]%Q) /\
    reached nat Nat.eqb 2 {| results := [r1; r3; r2]; file := file d1; metrics := metrics d1 |} /\
    evaluate nat Nat.eqb {| results := [r1; r3; r2]; file := file d1; metrics := metrics d1 |} [r1; r3] = Some (d2, [1 # 3; 2 # 3]%Q).
Proof.
  destruct (evaluate nat Nat.eqb before [r1; r2]) as [(d1 & qs)|] eqn:E; [|discriminate E].
  vm_compute in E. assert (E0 := E). injection E as <- <-.
  eexists. eexists. split; [reflexivity|]. split; [|reflexivity].
  match goal with |- reached _ _ _ {| results := _; file := file ?d; metrics := _ |} => apply (reached_change nat Nat.eqb 2 d) end.
  - apply (reached_evaluate nat Nat.eqb 2 before [r1; r2] _ [2 # 2; 1]%Q); [apply reached_start; exact valid2|apply incl_refl|].
    vm_compute. reflexivity.
  - exact valid3.
  - split; cbn; [intros x; cbn; tauto|]. intros H. exfalso. specialize (H 3). cbn in H. intuition lia.
Qed.

(** C121. Interrupted evaluations.  An interruption while old files are removed does no harm (what is missing
    for the full property is below: an interruption of the writing of the cache file). *)
Theorem C121_interruption_partial :
  forall (ID : Type) (id_eqb : ID -> ID -> bool), (forall i j, id_eqb i j = true <-> i = j) ->
  forall (m : nat) (d : disk ID) (kept : ID -> bool) (rs : list (ID * (key * list vec))),
    reached ID id_eqb m d -> incl rs (results d) ->
    exists d' qs,
      evaluate ID id_eqb {| results := results d; file := Missing; metrics := filter (fun x => kept (fst x)) (metrics d) |} rs = Some (d', qs) /\
      Forall2 (current_indicator ID (results d)) rs qs.
Proof.
  exact (fun ID id_eqb H m d kept rs R I =>
    evaluate_current ID id_eqb H m {| results := results d; file := Missing; metrics := filter (fun x => kept (fst x)) (metrics d) |} rs (reached_interrupted ID id_eqb m d kept R) I).
Qed.
Print Assumptions C121_interruption_partial.

(** After an interruption of the writing of the cache file every later evaluation raises, whatever results
    are added; only removing the file by hand helps. *)
Theorem C121_interrupted_write_refuted :
  forall (ID : Type) (id_eqb : ID -> ID -> bool) (d : disk ID) (r : ID * (key * list vec)) (rs : list (ID * (key * list vec))),
    file d = Half -> evaluate ID id_eqb d (r :: rs) = None.
Proof.
  intros ID id_eqb d r rs H. unfold evaluate. cbn [evaluate_with]. unfold indicator. cbn [find]. unfold preload, filter_non_dominated_in_cache.
  rewrite H. reflexivity.
Qed.
Print Assumptions C121_interrupted_write_refuted.
Example C121_example : exists d : disk nat, file d = Half /\ valid_results nat 2 (results d) /\ In r1 (results d).
Proof. exists {| results := [r1; r2]; file := Half; metrics := [] |}. split; [reflexivity|]. split; [exact valid2|left; reflexivity]. Qed.

(** C122. If a result is replaced by one of another budget with the same vectors, the cache file is taken to
    be up to date, and the indicator of the new result is 0 although it is alone and its indicator is 1. *)
Theorem C122_removed_results_refuted :
  exists (old new : list (nat * (key * list vec))) (r : nat * (key * list vec)) (d d' : disk nat) (qs : list Q),
    valid_results nat 2 old /\ valid_results nat 2 new /\ new = [r] /\
    evaluate nat Nat.eqb {| results := old; file := Missing; metrics := [] |} old = Some (d, qs) /\
    evaluate nat Nat.eqb {| results := new; file := file d; metrics := metrics d |} new = Some (d', [0%Q]) /\
    forall q, current_indicator nat new r q -> q = 1%Q.
Proof.
  exists [(1, (("500.pickle"%string, 0), [[1; 1]]%Z))], [(2, (("600.pickle"%string, 0), [[1; 1]]%Z))], (2, (("600.pickle"%string, 0), [[1; 1]]%Z)).
  eexists. eexists. eexists.
  split; [split; [repeat constructor; cbn; tauto|intros r [<-|[]]; (split; [discriminate|]); cbn; intros v Hv; intuition (subst; reflexivity)]|].
  split; [split; [repeat constructor; cbn; tauto|intros r [<-|[]]; (split; [discriminate|]); cbn; intros v Hv; intuition (subst; reflexivity)]|].
  split; [reflexivity|]. split; [vm_compute; reflexivity|]. split; [vm_compute; reflexivity|].
  intros q (front & N & Ne & Hf & Hq). cbn in Hf, Hq.
  assert (Hin : forall v, In v front -> v = [1; 1]%Z) by (intros v Hv; apply Hf in Hv; destruct Hv as ([<-|[]] & _); reflexivity).
  destruct front as [|v front]; [congruence|]. pose proof (Hin v (or_introl eq_refl)) as ->.
  destruct front as [|w front].
  - rewrite (Hq (fun _ => true)); [reflexivity|]. intros v [<-|[]]. split; [|reflexivity]. intros _. split; [|left; reflexivity].
    apply (Hf [1; 1]%Z). left. reflexivity.
  - exfalso. inversion N as [|? ? N1 _]. subst. apply N1. left. apply Hin. right. left. reflexivity.
Qed.
Print Assumptions C122_removed_results_refuted.
