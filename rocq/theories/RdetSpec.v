(** Specification vocabulary for the detailed ranking and the table. *)
From Verif Require Import PyStr StatModel StatSpec CellSpec RdetModel.
Local Open Scope nat_scope.

(** A results directory: different problems, different algorithms of a problem, different budgets of
    an algorithm, results as they are stored, no negative metric values. *)
Definition tidy_board (stored : board) : Prop :=
  NoDup (map fst stored) /\
  forall problem algos, In (problem, algos) stored ->
    NoDup (map fst algos) /\
    forall algo rs, In (algo, rs) algos ->
      NoDup (map fst rs) /\
      forall b analysis, In (b, analysis) rs ->
        fresh (as_result b analysis) /\
        forall m larger tol d x, ranked m larger tol -> has_metric (as_result b analysis) m d -> In x d -> (0 <= x)%Q.

(** The scores of the algorithms on one problem for one budget: the mean of the metric over the runs,
    for the algorithms that have an admitted result of exactly this budget. *)
Inductive scored_at (admitted : result -> Prop) (b : Z) (metric : string)
  : list (string * list (Z * list (string * list Q))) -> list (string * Q) -> Prop :=
| sa_nil : scored_at admitted b metric [] []
| sa_in algo rs rest l analysis data s :
    In (b, analysis) rs -> admitted (as_result b analysis) -> has_metric (as_result b analysis) metric data ->
    is_mean data s -> scored_at admitted b metric rest l ->
    scored_at admitted b metric ((algo, rs) :: rest) ((algo, s) :: l)
| sa_out algo rs rest l :
    (forall analysis data, In (b, analysis) rs -> admitted (as_result b analysis) ->
                           ~ has_metric (as_result b analysis) metric data) ->
    scored_at admitted b metric rest l -> scored_at admitted b metric ((algo, rs) :: rest) l.

(** The mean cost exceeds the budget by 500 at most. *)
Definition in_budget (r : result) : Prop := affordable (r_budget r + 500) r.
(** No condition. *)
Definition any_result (r : result) : Prop := True.

(** The number of problems on which an algorithm has the best score (the first, if several have it). *)
Inductive victories (larger : bool) (b : Z) (metric algo : string) : board -> nat -> Prop :=
| vi_nil : victories larger b metric algo [] 0
| vi_won problem algos rest scores s n :
    scored_at in_budget b metric algos scores -> wins larger scores (algo, s) ->
    victories larger b metric algo rest n -> victories larger b metric algo ((problem, algos) :: rest) (S n)
| vi_lost problem algos rest scores n :
    scored_at in_budget b metric algos scores -> (forall s, ~ wins larger scores (algo, s)) ->
    victories larger b metric algo rest n -> victories larger b metric algo ((problem, algos) :: rest) n.

(** Somebody has a score in this metric for this budget. *)
Definition contested (admitted : result -> Prop) (stored : board) (b : Z) (metric : string) : Prop :=
  exists problem algos scores, In (problem, algos) stored /\ scored_at admitted b metric algos scores /\ scores <> [].

(** Smaller budget first, then alphabetically. *)
Definition before (k k' : bm) : Prop :=
  (fst k < fst k')%Z \/ (fst k = fst k' /\ str_leb (snd k) (snd k') = true /\ snd k <> snd k').

(** What the detailed ranking prints for one directory. *)
Definition details_report (stored : board) (lines : list (bm * list (string * nat))) : Prop :=
  StronglySorted before (map fst lines) /\
  (forall b m, In (b, m) (map fst lines) <-> (exists larger tol, ranked m larger tol) /\ contested in_budget stored b m) /\
  (forall b m line larger tol, In ((b, m), line) lines -> ranked m larger tol ->
     exists pts, (forall algo, victories larger b m algo stored (pts algo)) /\ ranking_line pts line).

(** The points of an algorithm in a directory for one budget and metric. *)
Inductive dir_points (larger : bool) (tolerance : Q) (b : Z) (metric algo : string) : board -> nat -> Prop :=
| dp_nil : dir_points larger tolerance b metric algo [] 0
| dp_cons problem algos rest scores k n :
    scored_at any_result b metric algos scores -> points larger tolerance scores algo k ->
    dir_points larger tolerance b metric algo rest n ->
    dir_points larger tolerance b metric algo ((problem, algos) :: rest) (k + n).

(** The order of the metrics in the table. *)
Definition table_order : list string :=
  ["ahd"%string; "gd"%string; "igd"%string; "hypervolume"%string; "pdi"%string; "spacing"%string].

(** The directories the reports are about. *)
Definition report_dirs : list string :=
  ["./results_k0"%string; "./results_k1"%string; "../results_omopso_lpr/results_k2"%string].

(** The printed table: the metrics in their order, those in which somebody has a score at budget 40 in
    one of the directories; the budget is printed once, there is no dashed line; a cell per directory. *)
Definition table_report (dirs : string -> option board) (rows : list row) : Prop :=
  exists listed : string -> bool,
    (forall m, In m table_order ->
       (listed m = true <-> exists dir, In dir report_dirs /\ contested any_result (contents dirs dir) 40 m)) /\
    map r_metric rows = filter listed table_order /\
    match rows with
    | [] => True
    | r :: rest => r_dashed r = false /\ r_label r = Some 40%Z /\ Forall (fun r => r_dashed r = false /\ r_label r = None) rest
    end /\
    (forall r larger tol, In r rows -> ranked (r_metric r) larger tol ->
       Forall2 (fun dir c => exists pts, (forall algo, dir_points larger tol 40 (r_metric r) algo (contents dirs dir) (pts algo)) /\ table_cell pts c)
         report_dirs (r_cells r)).
