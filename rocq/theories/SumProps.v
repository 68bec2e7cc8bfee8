(** C144: the summary of stored results. *)
Require Import String Ascii List Arith NArith Lia Bool.
From Verif Require Import PyStr IdModel FsModel FsSpec FsProofs FsExtract FsRuns FsProps DirSpec DirProps SumModel SumSpec SumProofs.
Import ListNotations.
Open Scope string_scope.

(** C144 - after any history of finished stores the reports see every problem, algorithm and number exactly once: the
    summary has a line for it exactly if some run stored a result under it, and the count is the number of such runs. *)
Theorem C144_summary : forall R pickle (unpickle : string -> option R) root importable listing h,
  faithful pickle unpickle -> some_order listing -> Forall (regular R) h ->
  (forall e, In e h -> importable (l_problem (e_loc R e)) = true) ->
  let r := analyse_results R unpickle importable listing (run_events R pickle root [] h) root in
  snd r = None /\
  NoDup (map fst (fst r)) /\
  forall p a k n, In (p, a, k, n) (fst r) <->
    exists ids, ids <> [] /\ runs_with R h p a k ids /\ n = length ids.
Proof.
  intros R pickle unpickle root importable listing h Hc Hl Hh Hi.
  destruct (summary_ok R pickle unpickle Hc root importable listing Hl h Hh Hi) as (A & B & C & D).
  unfold analyse_results. destruct (each_result R unpickle importable listing (run_events R pickle root [] h) root) as [es e].
  cbn [fst snd] in *.
  assert (E : map fst (map (fun x : string * string * N * list (item R) => match x with (p, a, k, rs) => (p, a, k, length rs) end) es) = map (key R) es).
  { rewrite map_map. apply map_ext. intros [[[p a] k] rs]. reflexivity. }
  split; [exact A|]. split; [rewrite E; exact B|]. intros p a k n. rewrite in_map_iff.
  assert (X : exists ids, runs_with R h p a k ids).
  { exists (nodup string_dec (filter (fun i => if last_stored R h p a i k then true else false) (map (fun e => l_id (e_loc R e)) h))).
    split; [apply NoDup_nodup|]. intro i. rewrite nodup_In, filter_In. split.
    - intros [_ H] Q. rewrite Q in H. discriminate.
    - intro H. split; [|destruct (last_stored R h p a i k); [reflexivity|congruence]].
      destruct (stored_event R h p a i k H) as (ev & I & _ & _ & <-). apply in_map_iff. now exists ev. }
  destruct X as (ids & Rw). split.
  - intros ([[[p' a'] k'] rs] & Q & I). inversion Q; subst. exists ids. split; [|split; [exact Rw|now apply (D p a k)]].
    intros ->. assert (J : In (p, a, k) (map (key R) es)) by (apply in_map_iff; now exists (p, a, k, rs)).
    apply C in J. destruct J as (i & J). apply Rw in J. exact J.
  - intros (ids' & Hn & Rw' & ->). destruct ids' as [|i ids']; [congruence|].
    assert (J : In (p, a, k) (map (key R) es)) by (apply C; exists i; apply Rw'; now left).
    apply in_map_iff in J. destruct J as ([[[p' a'] k'] rs] & Q & I). cbn in Q. inversion Q; subst.
    exists (p, a, k, rs). split; [|exact I]. now rewrite (D p a k rs _ I Rw').
Qed.
Print Assumptions C144_summary.

(** A file or directory of any other name in the results directory makes every report end with an exception, whatever
    the order of the listing, although all results are there. *)
Theorem C144_stray_file_stops_every_report : forall R (unpickle : string -> option R) root importable listing s x,
  some_order listing -> lookup s [root] = Some Dir -> lookup s [root; x] <> None -> importable x = false ->
  snd (each_result R unpickle importable listing s root) <> None.
Proof. intros R unpickle root importable listing s x Hl. exact (stray_stops R unpickle root importable listing Hl s x). Qed.
Print Assumptions C144_stray_file_stops_every_report.

(** Two runs of one algorithm, one result of another. *)
Definition id1 : string := "2019-02-03.140509.000123__0000041".
Definition sum_history : list (event (list bool)) :=
  let l a i n := {| l_problem := "ZDT1"; l_algo := a; l_id := i; l_name := n |} in
  [ {| e_loc := l "NSGAII" id1 "500"; e_result := [true]; e_reach := Finished |};
    {| e_loc := l "NSGAII" odd_id "500"; e_result := [false]; e_reach := Finished |};
    {| e_loc := l "NSGAII" odd_id "1000"; e_result := [false; true]; e_reach := Finished |};
    {| e_loc := l "SPEA2" id1 "500"; e_result := []; e_reach := Finished |} ].

Example C144_example :
  Forall (regular (list bool)) sum_history /\
  analyse_results (list bool) toy_unpickle (String.eqb "ZDT1") plain_listing
    (run_events (list bool) toy_pickle "r" [] sum_history) "r" =
  ([("ZDT1", "NSGAII", 500%N, 2); ("ZDT1", "NSGAII", 1000%N, 1); ("ZDT1", "SPEA2", 500%N, 1)], None) /\
  snd (analyse_results (list bool) toy_unpickle (String.eqb "ZDT1") plain_listing
    (("r" :: ["notes.txt"], File "x") :: run_events (list bool) toy_pickle "r" [] sum_history) "r") = Some (NoModule "notes.txt").
Proof.
  split; [|split; vm_compute; reflexivity].
  repeat constructor; try (vm_compute; discriminate); [exists 500%N|exists 500%N|exists 1000%N|exists 500%N]; vm_compute; reflexivity.
Qed.
