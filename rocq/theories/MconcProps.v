(** C149: the same metric asked for by several processes at the same time. *)
Require Import String Ascii List Arith Lia Bool.
From Verif Require Import ConcModel MconcModel MconcSpec MconcProofs.
Import ListNotations.
Open Scope string_scope.

(** C149 - when all have ended, whatever the schedule, the cache file holds the value; and a process that has ended has
    got the value or what is made of a file that is cut off or has gaps of zeros. *)
Theorem C149_together_partial : forall V P eqP (pickle_m : V * P -> string) unpickle_m v params f n fuel schedule,
  let full := pickle_m (v, params) in
  (String.length full <= fuel)%nat -> f = None \/ f = Some full ->
  let st := ask_together V P eqP pickle_m unpickle_m fuel (Some v) params f n schedule in
  (forall a, In (Ended V a) (snd st) -> a = Value V v \/ exists b, worn full b /\ a = decoded V P eqP unpickle_m params b) /\
  ((0 < n)%nat -> (forall p, In p (snd st) -> exists a, p = Ended V a) -> fst st = Some full).
Proof.
  intros V P eqP pm um v params f n fuel schedule full Hf H0. cbv zeta.
  pose proof (J_run V P eqP pm um v params fuel Hf schedule _ (J_start V P eqP pm um v params fuel Hf f n H0)) as J'.
  split.
  - intros a. exact (J_answers V P eqP pm um v params fuel _ a J').
  - intros Hn. apply (J_end V P eqP pm um v params fuel _ J').
    intro E. apply (f_equal (@List.length (mprog V))) in E.
    assert (L : forall sch st, List.length (snd (fold_left (mturn V) sch st)) = List.length (snd st)).
    { clear. induction sch as [|i sch IH]; intro st; cbn [fold_left]; [reflexivity|]. rewrite IH.
      destruct st as [f ps]. unfold mturn. cbn [fst snd]. destruct (nth_error ps i) as [[a|c k]|] eqn:E; try reflexivity.
      assert (X : nth_error ps i <> None) by congruence. apply nth_error_Some in X.
      destruct (do_mcall f c). cbn [snd]. rewrite app_length. cbn [List.length]. rewrite firstn_length, skipn_length. lia. }
    rewrite L in E. cbn [snd] in E. rewrite repeat_length in E. cbn in E. lia.
Qed.
Print Assumptions C149_together_partial.

(** With a complete cache file at the start nobody writes, and every process gets the value. *)
Theorem C149_complete_file : forall V P eqP (pickle_m : V * P -> string) unpickle_m v params n fuel schedule,
  let full := pickle_m (v, params) in
  (String.length full <= fuel)%nat -> unpickle_m full = Some (v, params) -> eqP params params = true ->
  let st := ask_together V P eqP pickle_m unpickle_m fuel (Some v) params (Some full) n schedule in
  fst st = Some full /\ forall a, In (Ended V a) (snd st) -> a = Value V v.
Proof.
  intros V P eqP pm um v params n fuel schedule full Hf Hu He. cbv zeta.
  destruct (run2 V P eqP pm um v params fuel Hf schedule (Some full, repeat (ask_metric V P eqP pm um fuel (Some v) params) n)) as [F S].
  - reflexivity.
  - cbn [snd]. intros p Hp. apply repeat_spec in Hp. now apply at_start2.
  - split; [exact F|]. intros a H. destruct (S _ H) as [X|acc rest fu X _ _|X].
    + discriminate.
    + destruct fu; discriminate.
    + injection X as ->. unfold decoded. fold full. rewrite Hu, He. reflexivity.
Qed.
Print Assumptions C149_complete_file.

(** A codec that notices a file cut off. *)
Definition tiny_pickle (x : bool * unit) : string := if fst x then "t." else "f.".
Definition tiny_unpickle (b : string) : option (bool * unit) :=
  if String.eqb b "t." then Some (true, tt) else if String.eqb b "f." then Some (false, tt) else None.

(** One of two processes can end with an exception although the metric has a value and nobody is killed: it opens the
    file that the other has just made empty. *)
Theorem C149_value_refuted : exists schedule,
  ask_together bool unit (fun _ _ => true) tiny_pickle tiny_unpickle 10 (Some true) tt None 2 schedule =
  (Some "t.", [Ended bool (Value bool true); Ended bool (NotUnpickled bool)]).
Proof. exists [0; 0; 1; 1; 0; 0]. reflexivity. Qed.
Print Assumptions C149_value_refuted.

(** Both compute; the second empties the file between the bytes of the first; in the end it is complete. *)
Example C149_example :
  fst (ask_together bool unit (fun _ _ => true) tiny_pickle tiny_unpickle 10 (Some true) tt None 2 [0; 1; 0; 0; 1; 0])
    = Some (String "000"%char ".") /\
  ask_together bool unit (fun _ _ => true) tiny_pickle tiny_unpickle 10 (Some true) tt None 2 [0; 1; 0; 0; 1; 0; 1; 1]
    = (Some "t.", [Ended bool (Value bool true); Ended bool (Value bool true)]).
Proof. split; reflexivity. Qed.
