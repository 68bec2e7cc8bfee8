(** Property theorems C153: the detailed ranking and the table. *)
From Verif Require Import PyStr StatModel StatSpec StatProofs StatTable Base SortProofs CellModel CellSpec CellProofs RdetModel RdetSpec RdetProofs RdetTab.
Local Open Scope nat_scope.

(** C153 - the detailed ranking prints, for each of its three directories, a line for every budget and
    metric in which somebody has an affordable result, by budget and then alphabetically; the line
    ranks the algorithms by the number of problems they win.  [draws] are the random indices of the
    bootstrap. *)
Theorem C153_details :
  forall (boot_size : nat) (draws : string * string * string * Z -> nat -> nat -> nat -> nat) (dirs : string -> option board),
    1 <= boot_size -> (forall c, fair (draws c)) ->
    (forall dir, In dir report_dirs -> tidy_board (contents dirs dir)) ->
    exists printed, detailed_rank boot_size draws dirs = Some printed /\
      Forall2 (fun dir p => fst p = dir /\ details_report (contents dirs dir) (snd p)) report_dirs printed.
Proof.
  intros boot draws dirs Bp F T. unfold detailed_rank.
  change result_dirs with report_dirs. revert T. generalize report_dirs. induction l as [|d l IH]; intros T; cbn [detailed_loop].
  - exists []. split; [reflexivity | constructor].
  - destruct (details_ok boot draws Bp F (contents dirs d) (T d (or_introl eq_refl))) as (lines & -> & R).
    destruct (IH (fun x Hx => T x (or_intror Hx))) as (more & -> & Rm).
    exists ((d, lines) :: more). split; [reflexivity|]. constructor; [split; [reflexivity | exact R] | exact Rm].
Qed.
Print Assumptions C153_details.

(** C153 - the table: see [table_report]. *)
Theorem C153_table :
  forall (boot_size : nat) (draws : string * string * string * Z -> nat -> nat -> nat -> nat) (dirs : string -> option board),
    1 <= boot_size -> (forall c, fair (draws c)) ->
    (forall dir, In dir report_dirs -> tidy_board (contents dirs dir)) ->
    exists rows, table_rank boot_size draws dirs = Some rows /\ table_report dirs rows.
Proof. intros boot draws dirs Bp F T. apply table_ok_all; assumption. Qed.
Print Assumptions C153_table.

(** C153 - the reports say the same whatever the bootstrap draws: the number of victories is determined
    by the stored results. *)
Theorem C153_victories_determined :
  forall (stored : board) (larger : bool) (b : Z) (metric algo : string) (n n' : nat),
    tidy_board stored -> victories larger b metric algo stored n -> victories larger b metric algo stored n' -> n = n'.
Proof.
  intros stored larger b m a n n' T V V'. apply (victories_unique stored larger b m a T stored n (fun x H => H) V n' V').
Qed.
Print Assumptions C153_victories_determined.

(** C153 - where no result has the budget 40, the table has no row, whatever the directories hold. *)
Theorem C153_only_budget_40 :
  forall (boot_size : nat) (draws : string * string * string * Z -> nat -> nat -> nat -> nat) (dirs : string -> option board),
    1 <= boot_size -> (forall c, fair (draws c)) ->
    (forall dir, In dir report_dirs -> tidy_board (contents dirs dir)) ->
    (forall dir problem algos algo rs analysis, In dir report_dirs -> In (problem, algos) (contents dirs dir) ->
       In (algo, rs) algos -> ~ In (40%Z, analysis) rs) ->
    table_rank boot_size draws dirs = Some [].
Proof.
  intros boot draws dirs Bp F T No. destruct (C153_table boot draws dirs Bp F T) as (rows & E & listed & L & M & _). rewrite E. f_equal.
  assert (X : filter listed table_order = []).
  { apply filter_none. intros m Hm. apply Bool.not_true_is_false. intros C. apply (L m Hm) in C.
    destruct C as (dir & Hd & p & algos & scores & Hp & S & Ne). assert (No' : forall algo rs an, In (algo, rs) algos -> ~ In (40%Z, an) rs) by (intros; eapply No; eauto). clear - No' S Ne.
    induction S as [|al rs rest l an data s Hi Ha Hm Hs S IH|al rs rest l Ho S IH].
    - congruence.
    - apply (No' al rs an); [left; reflexivity | exact Hi].
    - apply IH; [exact Ne | intros al' rs' an' Hr; apply (No' al' rs' an'); right; exact Hr]. }
  rewrite X in M. destruct rows; [reflexivity | discriminate M].
Qed.
Print Assumptions C153_only_budget_40.

(** C153 - a directory the reports are not about does not change them; the directory [rank] reads and
    simulations write to by default is one. *)
Theorem C153_other_directories :
  forall (boot_size : nat) (draws : string * string * string * Z -> nat -> nat -> nat -> nat) (dirs dirs' : string -> option board),
    (forall dir, In dir report_dirs -> dirs dir = dirs' dir) ->
    detailed_rank boot_size draws dirs = detailed_rank boot_size draws dirs' /\
    table_rank boot_size draws dirs = table_rank boot_size draws dirs'.
Proof.
  intros boot draws dirs dirs' H.
  assert (C : forall d, In d report_dirs -> contents dirs d = contents dirs' d) by (intros d Hd; unfold contents; rewrite (H d Hd); reflexivity).
  split.
  - unfold detailed_rank, result_dirs. cbn [detailed_loop].
    rewrite !C by (cbn; tauto). reflexivity.
  - unfold table_rank, result_dirs. cbn [table_dirs]. rewrite (C "./results_k0"%string) by (cbn; tauto).
    rewrite (C "./results_k1"%string) by (cbn; tauto). rewrite (C "../results_omopso_lpr/results_k2"%string) by (cbn; tauto).
    destruct (table_problems boot draws _ _ []) as [t|]; [|reflexivity]. destruct (table_problems boot draws _ _ t) as [t1|]; [|reflexivity].
    destruct (table_problems boot draws _ _ t1) as [t2|]; [|reflexivity].
    f_equal.
Qed.
Print Assumptions C153_other_directories.

Open Scope string_scope.
Definition ex_run (c h g : Q) : list (string * list Q) :=
  [("cost", [c; c]); ("hypervolume", [h; h + 1]%Q); ("gd", [g; g])].
(** Two problems; NSGAII and SPEA2 with budgets 40 and 100; the run of SPEA2 on ZDT2 with budget 40 is
    far too expensive. *)
Definition ex_board : board :=
  [("ZDT1", [("NSGAII", [(40%Z, ex_run 41 5 3); (100%Z, ex_run 90 6 2)]); ("SPEA2", [(40%Z, ex_run 45 7 4)])]);
   ("ZDT2", [("NSGAII", [(40%Z, ex_run 50 2 1)]); ("SPEA2", [(40%Z, ex_run 9000 9 1); (100%Z, ex_run 99 4 1)])])].
Definition ex_dirs (where_ : string) (dir : string) : option board := if String.eqb dir where_ then Some ex_board else None.
Definition no_draws : string * string * string * Z -> nat -> nat -> nat -> nat := fun _ _ _ _ => 0%nat.

Lemma ex_run_ok b c h g : (0 <= h)%Q -> (0 <= g)%Q -> fresh (as_result b (ex_run c h g)) /\
  forall m larger tol d x, ranked m larger tol -> has_metric (as_result b (ex_run c h g)) m d -> In x d -> (0 <= x)%Q.
Proof.
  intros H G. split.
  - split; [|split].
    + exists [c; c], [("hypervolume", [h; h + 1]%Q); ("gd", [g; g])]. reflexivity.
    + cbn. repeat (constructor; [cbn; intuition discriminate|]). constructor.
    + intros m d X. cbn in X. destruct X as [X|[X|[X|[]]]]; injection X as _ <-; discriminate.
  - intros m larger tol d x R X Hx. cbn in X. destruct X as [X|[X|[X|[]]]]; injection X as <- <-.
    + apply cost_not_ranked in R. destruct R.
    + destruct Hx as [<-|[<-|[]]]; [exact H|]. apply (Qplus_le_compat 0 h 0 1 H). discriminate.
    + destruct Hx as [<-|[<-|[]]]; exact G.
Qed.

Lemma ex_board_tidy : tidy_board ex_board.
Proof.
  split; [cbn; repeat (constructor; [cbn; intuition discriminate|]); constructor|].
  intros p algos H. cbn in H. destruct H as [H|[H|[]]]; injection H as <- <-;
    (split; [cbn; repeat (constructor; [cbn; intuition discriminate|]); constructor|]);
    intros algo rs H; cbn in H; destruct H as [H|[H|[]]]; injection H as <- <-;
    (split; [cbn; repeat (constructor; [cbn; intuition discriminate|]); constructor|]);
    intros b an H; cbn in H; repeat (destruct H as [H|H]; [injection H as <- <-; apply ex_run_ok; discriminate|]); destruct H.
Qed.
Lemma ex_tidy w dir : tidy_board (contents (ex_dirs w) dir).
Proof.
  unfold contents, ex_dirs. destruct (String.eqb dir w); [apply ex_board_tidy|]. split; [constructor|]. intros p algos [].
Qed.

(** The hypotheses hold; what is printed for the directory. *)
Example C153_example :
  (forall dir, In dir report_dirs -> tidy_board (contents (ex_dirs "./results_k0") dir)) /\ (forall c, fair (no_draws c)) /\
  (exists more, detailed_rank 3 no_draws (ex_dirs "./results_k0") =
    Some (("./results_k0",
           [((40%Z, "gd"), [("NSGAII", 2)]); ((40%Z, "hypervolume"), [("SPEA2", 1); ("NSGAII", 1)]);
            ((100%Z, "gd"), [("NSGAII", 1); ("SPEA2", 1)]); ((100%Z, "hypervolume"), [("NSGAII", 1); ("SPEA2", 1)])]) :: more)) /\
  exists rows, table_rank 3 no_draws (ex_dirs "./results_k0") = Some rows /\
    map r_metric rows = ["gd"; "hypervolume"] /\ map r_label rows = [Some 40%Z; None] /\
    map r_cells rows = [[[("NSGAII", 3, false); ("SPEA2", 1, false)]; []; []]; [[("SPEA2", 4, false)]; []; []]].
Proof.
  split; [intros; apply ex_tidy|]. split; [intros c i j n; apply Nat.le_0_l|]. split.
  - eexists. vm_compute. reflexivity.
  - eexists. split; [vm_compute; reflexivity|]. split; [reflexivity|]. split; reflexivity.
Qed.
