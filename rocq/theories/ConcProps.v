(** C148: several processes store results at the same time. *)
Require Import String Ascii List Arith NArith Lia Bool.
From Verif Require Import PyStr IdModel FsModel FsSpec FsProofs FsHist FsProps ConcModel ConcSpec ConcProofs ConcEnd.
Import ListNotations.
Open Scope string_scope.

(** C148 - processes store results in one results directory, each its list of results in turn, under any schedule of
    their system calls, any of them killed at any point.  No two store to the same place.  Then no process ever gets an
    exception, and at any moment every result file is as if the processes had run one after the other, each as far as
    it has got. *)
Theorem C148_any_schedule : forall R pickle root s jobs schedule,
  usable root s -> tree s -> apart R jobs ->
  let st := run_processes R pickle root s jobs schedule in
  (forall P e, In P (snd st) -> P <> Return (Some e)) /\
  exists hs, Forall2 (got_to R) jobs hs /\
    (forall i js h, nth_error jobs i = Some js -> nth_error hs i = Some h ->
       nth_error (snd st) i = Some (Return None) -> h = stored R js) /\
    forall l, lookup (fst st) (loc_path root l) = lookup (run_events R pickle root s (concat hs)) (loc_path root l).
Proof.
  intros R pickle root s jobs schedule Hu Ht Ha. cbv zeta.
  pose proof (good_run R pickle root s jobs Ha schedule _ (good_start R pickle root s jobs Hu Ht)) as G.
  destruct (good_histories R pickle root s jobs Ha _ G) as (A & hs & F & D & L).
  split; [intros P e HP; now apply A|]. exists hs. split; [exact F|]. split; [exact D|].
  intro l. unfold run_processes. rewrite L. symmetry. apply (history_stands R pickle root (concat hs) s Hu).
Qed.
Print Assumptions C148_any_schedule.

(** When all have ended, everything (files and directories) is as if they had run one after the other. *)
Theorem C148_same_as_in_turn : forall R pickle root s jobs schedule,
  usable root s -> tree s -> apart R jobs ->
  let st := run_processes R pickle root s jobs schedule in
  Forall (fun P => P = Return None) (snd st) ->
  forall q, lookup (fst st) q = lookup (run_events R pickle root s (stored R (concat jobs))) q.
Proof.
  intros R pickle root s jobs schedule Hu Ht Ha. cbv zeta. intros E.
  apply (good_end R pickle root s jobs Hu Ha); [|exact E].
  apply good_run; [exact Ha|]. now apply good_start.
Qed.
Print Assumptions C148_same_as_in_turn.

(** No process waits for another: each ends after a number of its own calls that depends on its results only. *)
Theorem C148_no_waiting : forall R pickle root js, exists calls, forall s jobs schedule i,
  usable root s -> tree s -> apart R jobs -> nth_error jobs i = Some js ->
  (calls <= count_occ Nat.eq_dec schedule i)%nat ->
  nth_error (snd (run_processes R pickle root s jobs schedule)) i = Some (Return None).
Proof.
  intros R pickle root js. exists (height (store_all R pickle root js)). intros s jobs schedule i Hu Ht Ha J C.
  destruct (run_height schedule (s, map (store_all R pickle root) jobs) i (store_all R pickle root js)) as (P & HP & L).
  { cbn [snd]. rewrite nth_error_map, J. reflexivity. }
  unfold run_processes. rewrite HP. assert (H0 : height P = 0) by lia. destruct P as [e|c k]; [|cbn in H0; lia].
  destruct e as [e|]; [|reflexivity]. exfalso.
  destruct (C148_any_schedule R pickle root s jobs schedule Hu Ht Ha) as [N _].
  exact (N _ e (nth_error_In _ _ HP) eq_refl).
Qed.
Print Assumptions C148_no_waiting.

(** Whoever reads a result meanwhile gets what was there before, a result that some process stores there, or an
    unpickling error; never anything else. *)
Theorem C148_reader_partial : forall R pickle (unpickle : string -> option R) root s jobs schedule l,
  faithful pickle unpickle -> cut_detected pickle unpickle -> usable root s -> tree s -> apart R jobs ->
  let st := run_processes R pickle root s jobs schedule in
  let here := load R unpickle (fst st) (loc_dir root l) (l_name l) in
  here = load R unpickle s (loc_dir root l) (l_name l) \/
  (exists js r, In js jobs /\ In (l, r) js /\ here = Good r) \/
  here = Bad BadPickle.
Proof.
  intros R pickle unpickle root s jobs schedule l Hf Hc Hu Ht Ha. cbv zeta.
  pose proof (good_run R pickle root s jobs Ha schedule _ (good_start R pickle root s jobs Hu Ht)) as G.
  destruct (good_histories R pickle root s jobs Ha _ G) as (_ & hs & F & _ & L).
  unfold load, load_path. fold (loc_path root l). unfold run_processes.
  rewrite !read_usable by (try apply G; assumption). rewrite L.
  assert (X : forall r, (outcome R (concat hs) l = Holds r \/ exists m, outcome R (concat hs) l = Torn r m) ->
    exists js, In js jobs /\ In (l, r) js).
  { intros r H.
    assert (E : exists e, In e (concat hs) /\ e_loc R e = l /\ e_result R e = r).
    { revert H. unfold outcome. set (P := fun w : word R => w = Holds r \/ exists m, w = Torn r m).
      change (P (fold_left (hear R l) (concat hs) Untouched) -> exists e, In e (concat hs) /\ e_loc R e = l /\ e_result R e = r).
      assert (Y : forall h w, P (fold_left (hear R l) h w) -> P w \/ exists e, In e h /\ e_loc R e = l /\ e_result R e = r).
      { induction h as [|e h IH]; intros w H; cbn [fold_left] in H; [now left|].
        apply IH in H. destruct H as [H|(e' & I & H)]; [|right; exists e'; split; [now right|exact H]].
        unfold hear in H. destruct (location_eq_dec (e_loc R e) l) as [El|]; [|now left].
        destruct (e_reach R e) as [|j|m]; [|now left|].
        - right. exists e. split; [now left|]. split; [exact El|]. destruct H as [H|(m & H)]; congruence.
        - right. exists e. split; [now left|]. split; [exact El|]. destruct H as [H|(m' & H)]; congruence. }
      intro H. destruct (Y _ _ H) as [[Z|(m & Z)]|Z]; [discriminate|discriminate|exact Z]. }
    destruct E as (e & I & <- & <-). apply in_concat in I. destruct I as (h & Hh & He).
    clear -F Hh He. induction F as [|js h' jobs hs G F IH]; [destruct Hh|]. destruct Hh as [->|Hh].
    - exists js. split; [now left|]. clear -G He. induction G as [|j rest x|j rest h G IH]; [destruct He| |].
      + destruct He as [<-|[]]. cbn. left. now destruct j.
      + destruct He as [<-|He]; [cbn; left; now destruct j|]. right. now apply IH.
    - destruct (IH Hh) as (js' & A & B). exists js'. split; [now right|exact B]. }
  destruct (outcome R (concat hs) l) as [|r|r m]; cbn [stands].
  - now left.
  - right. left. destruct (X r (or_introl eq_refl)) as (js & A & B). exists js, r. rewrite Hf. auto.
  - destruct (le_lt_dec (String.length (pickle r)) m) as [Hm|Hm].
    + right. left. destruct (X r (or_intror (ex_intro _ m eq_refl))) as (js & A & B). exists js, r.
      rewrite take_all by exact Hm. rewrite Hf. auto.
    + right. right. unfold take. now rewrite Hc.
Qed.
Print Assumptions C148_reader_partial.

(** Such an error ends a report on the directory, although another run is complete. *)
Definition id2 : string := "2019-02-03.140509.000123__0000041".
Definition two_jobs : list (list (location * list bool)) :=
  let l a i n := {| l_problem := "ZDT1"; l_algo := a; l_id := i; l_name := n |} in
  [ [(l "NSGAII" id2 "500", [true]); (l "NSGAII" id2 "1000", [true; false])];
    [(l "NSGAII" odd_id "500", [false])] ].

Lemma two_apart : apart (list bool) two_jobs.
Proof.
  intros [|[|i]] [|[|j]] a b l N A B; cbn in A, B; try congruence; try (destruct i; discriminate); try (destruct j; discriminate);
    injection A as <-; injection B as <-; cbn; intros H K;
    repeat match goal with H : _ \/ _ |- _ => destruct H | H : False |- _ => destruct H end; subst; discriminate.
Qed.

Lemma empty_usable : forall root, usable root [].
Proof. intro root. constructor; intros; discriminate. Qed.

Lemma empty_tree : tree [].
Proof. constructor; [intros; discriminate|constructor]. Qed.

Theorem C148_report_meanwhile_refuted : exists schedule,
  let st := run_processes (list bool) toy_pickle "r" [] two_jobs schedule in
  nth_error (snd st) 0 = Some (Return None) /\
  extract (list bool) toy_unpickle (fst st) "r" "ZDT1" "NSGAII" = Bad BadPickle.
Proof. exists (repeat 0 60 ++ repeat 1 3)%list. split; vm_compute; reflexivity. Qed.
Print Assumptions C148_report_meanwhile_refuted.

(** Both make the same directories in alternation; both end, and a report then sees all three results. *)
Example C148_example :
  usable "r" [] /\ tree [] /\ apart (list bool) two_jobs /\
  let st := run_processes (list bool) toy_pickle "r" [] two_jobs (concat (repeat [0; 1] 60)) in
  snd st = [Return None; Return None] /\
  match extract (list bool) toy_unpickle (fst st) "r" "ZDT1" "NSGAII" with
  | Good groups => map (fun g => (fst g, map (i_result (list bool)) (snd g))) groups
  | Bad _ => []
  end = [(500%N, [[true]; [false]]); (1000%N, [[true; false]])].
Proof.
  split; [apply empty_usable|]. split; [apply empty_tree|]. split; [apply two_apart|].
  split; vm_compute; reflexivity.
Qed.
