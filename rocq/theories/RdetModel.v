(** Model of the detailed ranking and of the result table as whole commands.
    Source: statistic/ranking.py:35, 49-177 (table_rank), 186-234 (detailed_rank),
    simulation/serialization.py:90-116 (each_result: a directory that does not exist yields nothing).
    Scores and validation are those of StatModel, counters and cells those of CellModel.  No proofs here. *)
From Verif Require Import PyStr StatModel CellModel.
Local Open Scope nat_scope.

(** What each_result yields for a directory: problems, their algorithms, and for each algorithm the
    results by budget with the values of the metrics in the runs.
    simulation/serialization.py:90-116, simulation/metrics_processor.py:17-68. *)
Definition board := list (string * list (string * list (Z * list (string * list Q)))).
(** A result as the functions of StatModel take it.  simulation/serialization.py:96-103. *)
Definition as_result (b : Z) (analysis : list (string * list Q)) : result :=
  {| r_budget := inject_Z b; r_analysis := analysis |}.

(** statistic/ranking.py:35. *)
Definition result_dirs : list string :=
  ["./results_k0"%string; "./results_k1"%string; "../results_omopso_lpr/results_k2"%string].
(** simulation/serialization.py:11: the directory [rank] reads (ranking.py:248-250) and simulations
    write to unless told otherwise. *)
Definition RESULTS_DIR : string := "../results_temp/results_k2"%string.

(** d[k] = f(d[k]) on a defaultdict, in insertion order.  statistic/ranking.py:54-56, 96-98, 114-121,
    197, 213-217, 219-226. *)
Fixpoint upd {K V} (eqb : K -> K -> bool) (default : V) (d : list (K * V)) (k : K) (f : V -> V) : list (K * V) :=
  match d with
  | [] => [(k, f default)]
  | (k', v) :: d' => if eqb k' k then (k', f v) :: d' else (k', v) :: upd eqb default d' k f
  end.
(** d[k] on a defaultdict (without the insertion, which nothing observes).  statistic/ranking.py:157-158. *)
Fixpoint get {K V} (eqb : K -> K -> bool) (default : V) (d : list (K * V)) (k : K) : V :=
  match d with
  | [] => default
  | (k', v) :: d' => if eqb k' k then v else get eqb default d' k
  end.

(** Keys (budget, metric) and (problem, budget, metric).  statistic/ranking.py:96, 114, 214. *)
Notation bm := (Z * string)%type.
(** statistic/ranking.py:96, 114. *)
Definition bm_eqb (a b : bm) : bool := (Z.eqb (fst a) (fst b) && String.eqb (snd a) (snd b))%bool.
(** statistic/ranking.py:214. *)
Notation pbm := (string * bm)%type.
(** statistic/ranking.py:214. *)
Definition pbm_eqb (a b : pbm) : bool := (String.eqb (fst a) (fst b) && bm_eqb (snd a) (snd b))%bool.

(** The order of Python tuples (int, str), as sorted() uses it.  statistic/ranking.py:101, 227. *)
Definition bm_leb (a b : bm) : bool :=
  (Z.ltb (fst a) (fst b) || (Z.eqb (fst a) (fst b) && str_leb (snd a) (snd b)))%bool.

Section Reports.
  Variable boot_size : nat.
  (** The draws of the bootstrap of one metric of one result. *)
  Variable randint : string * string * string * Z -> nat -> nat -> nat -> nat.

  (** statistic/ranking.py:84-98 and 204-217: the scores of the metrics of one result that are still
      to come; None = an exception. *)
  Fixpoint score_items {K} (eqb : K -> K -> bool) (mk : string -> K) (problem algo : string) (budget : Z)
           (items : list (string * list Q)) (d : list (K * list (string * Q))) : option (list (K * list (string * Q))) :=
    match items with
    | [] => Some d
    | (metric, data) :: rest =>
        match best_func metric with
        | None => score_items eqb mk problem algo budget rest d
        | Some _ =>
            match yield_analysis (randint (problem, algo, metric, budget)) data boot_size with
            | None => None
            | Some a =>
                match b_metrics (a_btstrpd a) with
                | NegInf => None
                | Fin score =>
                    score_items eqb mk problem algo budget rest (upd eqb [] d (mk metric) (fun l => l ++ [(algo, score)])%list)
                end
            end
        end
    end.

  (** ** detailed_rank *)

  (** statistic/ranking.py:201-217: the results of one algorithm. *)
  Fixpoint details_results (problem algo : string) (rs : list (Z * list (string * list Q)))
           (d : list (pbm * list (string * Q))) : option (list (pbm * list (string * Q))) :=
    match rs with
    | [] => Some d
    | (b, analysis) :: rest =>
        match validate_cost boot_size _ randint (problem, algo, "cost"%string, b) (as_result b analysis) 500 with
        | None => None
        | Some (false, _) => details_results problem algo rest d
        | Some (true, left_over) =>
            match score_items pbm_eqb (fun m => (problem, (b, m))) problem algo b left_over d with
            | None => None
            | Some d' => details_results problem algo rest d'
            end
        end
    end.
  (** statistic/ranking.py:200-217. *)
  Fixpoint details_algos (problem : string) (algos : list (string * list (Z * list (string * list Q))))
           (d : list (pbm * list (string * Q))) : option (list (pbm * list (string * Q))) :=
    match algos with
    | [] => Some d
    | (algo, rs) :: rest =>
        match details_results problem algo rs d with
        | None => None
        | Some d' => details_algos problem rest d'
        end
    end.
  (** statistic/ranking.py:197-217. *)
  Fixpoint details_problems (stored : board) (d : list (pbm * list (string * Q)))
    : option (list (pbm * list (string * Q))) :=
    match stored with
    | [] => Some d
    | (problem, algos) :: rest =>
        match details_algos problem algos d with
        | None => None
        | Some d' => details_problems rest d'
        end
    end.

  (** statistic/ranking.py:219-225: one point for the winner. *)
  Fixpoint details_winners (scoring : list (pbm * list (string * Q))) (c : list (bm * counter))
    : option (list (bm * counter)) :=
    match scoring with
    | [] => Some c
    | ((_, k), scores) :: rest =>
        match best_func (snd k) with
        | None => None
        | Some larger =>
            match best_of larger scores with
            | None => None
            | Some w => details_winners rest (upd bm_eqb [] c k (fun n => count_one n (fst w)))
            end
        end
    end.

  (** statistic/ranking.py:195-234: what is printed for one directory: a line per budget and metric. *)
  Definition details (stored : board) : option (list (bm * list (string * nat))) :=
    match details_problems stored [] with
    | None => None
    | Some scoring =>
        match details_winners scoring [] with
        | None => None
        | Some c => Some (map (fun k => (k, most_common (get bm_eqb [] c k))) (stable_sort bm_leb (map fst c)))
        end
    end.

  (** What each_result finds in a directory; one that does not exist yields nothing.
      simulation/serialization.py:112-116. *)
  Definition contents (dirs : string -> option board) (dir : string) : board :=
    match dirs dir with Some b => b | None => [] end.

  (** statistic/ranking.py:186-234 [detailed_rank]: the directories and their lines. *)
  Fixpoint detailed_loop (dirs : string -> option board) (names : list string)
    : option (list (string * list (bm * list (string * nat)))) :=
    match names with
    | [] => Some []
    | dir :: rest =>
        match details (contents dirs dir), detailed_loop dirs rest with
        | Some lines, Some more => Some ((dir, lines) :: more)
        | _, _ => None
        end
    end.
  (** statistic/ranking.py:186-195. *)
  Definition detailed_rank (dirs : string -> option board) := detailed_loop dirs result_dirs.

  (** ** table_rank *)

  (** statistic/ranking.py:68-98: only the budget 40 is looked at. *)
  Fixpoint table_results (problem algo : string) (rs : list (Z * list (string * list Q)))
           (d : list (bm * list (string * Q))) : option (list (bm * list (string * Q))) :=
    match rs with
    | [] => Some d
    | (b, analysis) :: rest =>
        if Z.eqb b 40 then
          match score_items bm_eqb (fun m => (b, m)) problem algo b analysis d with
          | None => None
          | Some d' => table_results problem algo rest d'
          end
        else table_results problem algo rest d
    end.
  (** statistic/ranking.py:65-98. *)
  Fixpoint table_algos (problem : string) (algos : list (string * list (Z * list (string * list Q))))
           (d : list (bm * list (string * Q))) : option (list (bm * list (string * Q))) :=
    match algos with
    | [] => Some d
    | (algo, rs) :: rest =>
        match table_results problem algo rs d with
        | None => None
        | Some d' => table_algos problem rest d'
        end
    end.

  (** The points of the table: per budget and metric, per directory, a counter.
      statistic/ranking.py:54-56. *)
  Definition points_table := list (bm * list (string * counter)).

  (** statistic/ranking.py:100-123: the points of one problem. *)
  Fixpoint table_award (dir : string) (scoring : list (bm * list (string * Q))) (keys : list bm) (t : points_table)
    : option points_table :=
    match keys with
    | [] => Some t
    | k :: rest =>
        match best_func (snd k) with
        | None => None
        | Some larger =>
            match award (snd k) larger (get bm_eqb [] scoring k) with
            | None => None
            | Some names =>
                table_award dir scoring rest
                  (upd bm_eqb [] t k (fun by_dir => upd String.eqb [] by_dir dir (fun c => count_all c names)))
            end
        end
    end.

  (** statistic/ranking.py:61-131: the problems of one directory. *)
  Fixpoint table_problems (dir : string) (stored : board) (t : points_table) : option points_table :=
    match stored with
    | [] => Some t
    | (problem, algos) :: rest =>
        match table_algos problem algos [] with
        | None => None
        | Some scoring =>
            match table_award dir scoring (stable_sort bm_leb (map fst scoring)) t with
            | None => None
            | Some t' => table_problems dir rest t'
            end
        end
    end.

  (** statistic/ranking.py:58-131. *)
  Fixpoint table_dirs (dirs : string -> option board) (names : list string) (t : points_table) : option points_table :=
    match names with
    | [] => Some t
    | dir :: rest =>
        match table_problems dir (contents dirs dir) t with
        | None => None
        | Some t' => table_dirs dirs rest t'
        end
    end.

  (** statistic/ranking.py:24: metrics_order.index; None = ValueError. *)
  Definition metric_index (m : string) : option nat :=
    (fix find (l : list string) (i : nat) : option nat :=
       match l with
       | [] => None
       | x :: l' => if String.eqb x m then Some i else find l' (S i)
       end) ["ahd"%string; "gd"%string; "igd"%string; "hypervolume"%string; "pdi"%string; "spacing"%string] 0.

  (** One printed row: whether a dashed line precedes it, the budget if it is printed, the metric, the
      cells of the directories.  statistic/ranking.py:150-175. *)
  Record row := { r_dashed : bool; r_label : option Z; r_metric : string; r_cells : list (list (string * nat * bool)) }.

  (** statistic/ranking.py:145-175; [prev] is prevous_budget, 0 counts as None. *)
  Fixpoint table_rows (t : points_table) (keys : list bm) (prev : option Z) : list row :=
    match keys with
    | [] => []
    | k :: rest =>
        let known := match prev with Some p => negb (Z.eqb p 0) | None => false end in
        let same := match prev with Some p => Z.eqb p (fst k) | None => false end in
        {| r_dashed := (known && negb same)%bool;
           r_label := if (known && same)%bool then None else Some (fst k);
           r_metric := snd k;
           r_cells := map (fun dir => cell (get String.eqb [] (get bm_eqb [] t k) dir)) result_dirs |}
        :: table_rows t rest (Some (fst k))
    end.

  (** statistic/ranking.py:145-149: by budget, within a budget in the order of the metrics; every key
      has a metric of best_func, all of which are in metrics_order. *)
  Definition table_keys (t : points_table) : list bm :=
    stable_sort (fun a b => Z.leb (fst a) (fst b))
      (stable_sort (fun a b => match metric_index (snd a), metric_index (snd b) with
                               | Some i, Some j => i <=? j | _, _ => true end) (map fst t)).

  (** statistic/ranking.py:49-177 [table_rank]: the rows; None = an exception. *)
  Definition table_rank (dirs : string -> option board) : option (list row) :=
    match table_dirs dirs result_dirs [] with
    | None => None
    | Some t => Some (table_rows t (table_keys t) None)
    end.
End Reports.
