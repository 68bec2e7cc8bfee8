(** Model of the data that the plotting commands draw.
    Source: plots/pictures.py, plots/violin.py, plots/best_fronts.py, evotools/ea_utils.py:86-103,
    simulation/run_config.py:3-5 (names of algorithms).
    A figure is the list of what is drawn in it; colours, markers, fonts, file names and the legend
    are left out.  Floats are rational numbers (exact), in the summary real numbers (logarithms).
    [None] is an exception that ends the command.  No proofs here. *)
From Coq Require Import Reals Qreals.
From Verif Require Import StatModel.
From Verif Require Import DomModel.
Local Open Scope Q_scope.
Local Open Scope string_scope.

(** ** Dictionaries (dict, defaultdict) in insertion order *)
Section Dict.
  Context {K V : Type}.
  Variable eqb : K -> K -> bool.
  (** d[k] on the dictionaries of plots/violin.py:31-131 and plots/pictures.py:379-671. *)
  Fixpoint lookup (d : list (K * V)) (k : K) : option V :=
    match d with
    | [] => None
    | (k', v) :: d' => if eqb k' k then Some v else lookup d' k
    end.
  (** d[k] = f(d[k]), where a missing entry counts as [dflt].
      plots/violin.py:49-51, plots/pictures.py:520-521, 560-561. *)
  Fixpoint update (d : list (K * V)) (k : K) (dflt : V) (f : V -> V) : list (K * V) :=
    match d with
    | [] => [(k, f dflt)]
    | (k', v) :: d' => if eqb k' k then (k', f v) :: d' else (k', v) :: update d' k dflt f
    end.
End Dict.

(** pictures.py:520-521, 560-561: (problem, algorithm, metric). *)
Definition key3 := (string * string * string)%type.
(** pictures.py:520-521, 560-561: equality of such keys. *)
Definition key3_eqb (a b : key3) : bool :=
  (key_eqb (fst a) (fst b) && String.eqb (snd a) (snd b))%bool.

(** ** The names the plots know *)

(** run_config.py:3-5 *)
Definition drivers : list string :=
  ["SPEA2"; "IBEA"; "NSGAII"; "OMOPSO"; "NSGAIII"; "JGBL"; "SMSEMOA"; "NSLS"].
(** run_config.py:5. *)
Definition metaalgorithms : list string := ["IMGA"; "HGS"; "DHGS"].

(** run_config.py:7-9 *)
Definition algorithms : list string :=
  (flat_map (fun meta => map (fun algo => (meta ++ "+" ++ algo)%string) drivers) metaalgorithms ++ drivers)%list.

(** pictures.py:38-53: the drivers with a line style and a marker. *)
Definition styled : list string :=
  ["SPEA2"; "NSGAII"; "NSGAIII"; "IBEA"; "OMOPSO"; "JGBL"; "NSLS"].

(** pictures.py:61-74 [algos], the keys; the first component of a value is the key itself. *)
Definition algos : list string :=
  flat_map (fun meta =>
              flat_map (fun algo =>
                          if existsb (String.eqb algo) styled
                          then [if String.eqb meta "BARE" then algo else (meta ++ "+" ++ algo)%string]
                          else []) drivers)
           (metaalgorithms ++ ["BARE"])%list.

(** pictures.py:78-82 [algos_order]; with algos_groups_configuration_all_together (:85, :144) also
    the keys of [algos_groups] (:146-150), each with the single group "". *)
Definition algos_base : list string := ["NSGAII"; "IBEA"; "OMOPSO"; "NSGAIII"; "JGBL"; "NSLS"].
(** pictures.py:78-82. *)
Definition algos_order : list string :=
  (algos_base ++ flat_map (fun meta => map (fun algo => (meta ++ "+" ++ algo)%string) algos_base) metaalgorithms)%list.

(** pictures.py:122-142 *)
Definition problems_order : list string :=
  ["EWA1"; "EWA2"; "ZDT1"; "ZDT2"; "ZDT3"; "ZDT4"; "ZDT6"; "UF1"; "UF2"; "UF3"; "UF4"; "UF5"; "UF6";
   "UF7"; "UF8"; "UF9"; "UF10"; "UF11"; "UF12"].

(** x in l (pictures.py:573, violin.py:59-64). *)
Definition mem (x : string) (l : list string) : bool := existsb (String.eqb x) l.

(** ** Reading the stored results *)
Section Reading.
  Variable boot_size : nat.
  Variable randint : string * string * string * Q -> nat -> nat -> nat -> nat.

  (** The loop "for metric_name, metric_name_long, data_process in result['analysis']: if metric_name
      in best_func" (violin.py:43-48, pictures.py:500-506, 542-549, 642-647). *)
  Definition ranked_items (items : list (string * list Q)) : list (string * list Q) :=
    filter (fun it => match best_func (fst it) with Some _ => true | None => false end) items.

  (** violin.py:39-51, pictures.py:635-647: what the loop over one problem's algorithms visits:
      algorithm, metric, the metric's values in the runs of the acceptable result. *)
  Fixpoint visited (problem : string) (stored : list (string * list result))
    : option (list (string * string * list Q)) :=
    match stored with
    | [] => Some []
    | (algo, results) :: rest =>
        match find_acceptable boot_size _ randint
                (fun r => (problem, algo, "cost", r_budget r)) results with
        | None => None
        | Some found =>
            match visited problem rest with
            | None => None
            | Some more =>
                Some (match found with
                      | None => more
                      | Some r => (map (fun it => (algo, fst it, snd it)) (ranked_items (r_analysis r))
                                   ++ more)%list
                      end)
            end
        end
    end.

  (** data_analysis["btstrpd"]["metrics"]. pictures.py:642-654. *)
  Definition score_of (c : string * string * string * Q) (data : list Q) : option Q :=
    match yield_analysis (randint c) data boot_size with
    | None => None
    | Some a => match b_metrics (a_btstrpd a) with NegInf => None | Fin s => Some s end
    end.

  (** ** plots/violin.py *)

  (** One picture: for every violin its label and the values. violin.py:55-131. *)
  Record violins := { v_problem : string; v_metric : string; v_drawn : list (string * list Q) }.

  (** violin.py:27-28 [prepare_data]: [v if v else sys.float_info.epsilon]. *)
  Definition prepare_data (data : list (list Q)) : list (list Q) :=
    map (map (fun v => if Qeq_bool v 0 then epsilon else v)) data.

  (** violin.py:32-51: global_data, a defaultdict(dict). *)
  Definition note (problem : string) (d : list (key * list (string * list Q)))
             (e : string * string * list Q) : list (key * list (string * list Q)) :=
    let '(algo, metric, data) := e in
    update key_eqb d (problem, metric) [] (fun m => update String.eqb m algo [] (fun _ => data)).
  (** violin.py:32-51: the loop over the stored results. *)
  Fixpoint gather (stored : list (string * list (string * list result)))
           (d : list (key * list (string * list Q))) : option (list (key * list (string * list Q))) :=
    match stored with
    | [] => Some d
    | (problem, algorithms) :: rest =>
        match visited problem algorithms with
        | None => None
        | Some evs => gather rest (fold_left (note problem) evs d)
        end
    end.

  (** violin.py:59-64 [accepted_algos]: the list of zeros is compared element by element. *)
  Definition all_zero (data : list Q) : bool := forallb (fun v => Qeq_bool v 0) data.
  (** violin.py:59-64. *)
  Definition accepted_algos (algo_data : list (string * list Q)) : list string :=
    filter (fun algo => match lookup String.eqb algo_data algo with
                        | Some data => negb (all_zero data)
                        | None => false
                        end) algos_order.

  (** algo_data[algo_name]. violin.py:59-131. *)
  Definition data_of (algo_data : list (string * list Q)) (algo : string) : list Q :=
    match lookup String.eqb algo_data algo with Some data => data | None => [] end.

  (** violin.py:55-131: one picture for every entry with data; [drawable] says whether
      matplotlib draws these violins (a LinAlgError is caught, :130, and the picture is not saved). *)
  Definition violin_figure (drawable : list (list Q) -> bool) (entry : key * list (string * list Q))
    : list violins :=
    let '((problem, metric), algo_data) := entry in
    let accepted := accepted_algos algo_data in
    let data := prepare_data (map (data_of algo_data) accepted) in
    match data with
    | [] => []
    | _ => if drawable data
           then [{| v_problem := problem; v_metric := metric; v_drawn := combine accepted data |}]
           else []
    end.

  (** violin.py:31-131 [violin]; line 53 reads global_data[("UF2", "pdi")], which adds the entry. *)
  Definition violin (drawable : list (list Q) -> bool)
             (stored : list (string * list (string * list result))) : option (list violins) :=
    match gather stored [] with
    | None => None
    | Some d => Some (flat_map (violin_figure drawable)
                               (update key_eqb d ("UF2", "pdi") [] (fun m => m)))
    end.

  (** ** plots/pictures.py: curves *)

  (** A picture of curves: the visible range of the first axis, and for every line its label and its
      points.  The error bars (xerr, yerr) are collected but not drawn and are left out. *)
  Record curves := { c_problem : string; c_metric : string; c_range : Q * Q;
                     c_lines : list (string * list (Q * Q)) }.

  (** pictures.py:500-521, 542-561: the values of one result; [algos_groups[algo_name]] is a KeyError for
      the names that are not in [algos_order]; [x] is the time or the mean cost. *)
  Fixpoint note_metrics (problem algo : string) (budget x : Q) (items : list (string * list Q))
           (d : list (key3 * list (Q * Q))) : option (list (key3 * list (Q * Q))) :=
    match items with
    | [] => Some d
    | (metric, data) :: rest =>
        match score_of (problem, algo, metric, budget) data with
        | None => None
        | Some score =>
            if mem algo algos_order
            then note_metrics problem algo budget x rest
                   (update key3_eqb d (problem, algo, metric) [] (fun l => (l ++ [(x, score)])%list))
            else None
        end
    end.

  (** pictures.py:540-561 (pictures_time): r_budget is result["time"]. *)
  Fixpoint note_times (problem algo : string) (results : list result)
           (d : list (key3 * list (Q * Q))) : option (list (key3 * list (Q * Q))) :=
    match results with
    | [] => Some d
    | r :: rest =>
        match note_metrics problem algo (r_budget r) (r_budget r) (ranked_items (r_analysis r)) d with
        | None => None
        | Some d' => note_times problem algo rest d'
        end
    end.

  (** pictures.py:492-521 (pictures_from_stats): the first item of the generator is the cost (:493),
      StopIteration if there is none. *)
  Fixpoint note_budgets (problem algo : string) (results : list result)
           (d : list (key3 * list (Q * Q))) : option (list (key3 * list (Q * Q))) :=
    match results with
    | [] => Some d
    | r :: rest =>
        match r_analysis r with
        | [] => None
        | (_, cost_data) :: items =>
            match score_of (problem, algo, "cost", r_budget r) cost_data with
            | None => None
            | Some budget =>
                match note_metrics problem algo (r_budget r) budget (ranked_items items) d with
                | None => None
                | Some d' => note_budgets problem algo rest d'
                end
            end
        end
    end.

  Section Loops.
    Variable note_results : string -> string -> list result ->
                            list (key3 * list (Q * Q)) -> option (list (key3 * list (Q * Q))).
    (** pictures.py:476-561: the loop over the algorithms. *)
    Fixpoint note_algos (problem : string) (stored : list (string * list result))
             (d : list (key3 * list (Q * Q))) : option (list (key3 * list (Q * Q))) :=
      match stored with
      | [] => Some d
      | (algo, results) :: rest =>
          match note_results problem algo results d with
          | None => None
          | Some d' => note_algos problem rest d'
          end
      end.
    (** pictures.py:476-561: the loop over the problems. *)
    Fixpoint note_problems (stored : list (string * list (string * list result)))
             (d : list (key3 * list (Q * Q))) : option (list (key3 * list (Q * Q))) :=
      match stored with
      | [] => Some d
      | (problem, algorithms) :: rest =>
          match note_algos problem algorithms d with
          | None => None
          | Some d' => note_problems rest d'
          end
      end.
  End Loops.

  (** pictures.py:383-396: one line of values sorted by the first component (a stable sort), filed
      under its problem and metric. *)
  Definition x_leb (p q : Q * Q) : bool := Qle_bool (fst p) (fst q).
  (** pictures.py:383-396: one curve. *)
  Definition file_curve (to_plot : list (key * list (string * list (Q * Q))))
             (entry : key3 * list (Q * Q)) : list (key * list (string * list (Q * Q))) :=
    let '((problem, algo, metric), values) := entry in
    update key_eqb to_plot (problem, metric) []
           (fun l => (l ++ [(algo, stable_sort x_leb values)])%list).

  (** pictures.py:416-438: dict(plot_data) keeps the last value of a name; the lines in the order of
      algos_order. *)
  Definition draw_lines (plot_data : list (string * list (Q * Q))) : list (string * list (Q * Q)) :=
    flat_map (fun algo => match lookup String.eqb (rev plot_data) algo with
                          | Some line => [(algo, line)]
                          | None => []
                          end) algos_order.

  (** pictures.py:379-473 [plot_results] *)
  Definition plot_results (results : list (key3 * list (Q * Q))) (plot_range : Q * Q) : list curves :=
    map (fun '((problem, metric), plot_data) =>
           {| c_problem := problem; c_metric := metric; c_range := plot_range;
              c_lines := draw_lines plot_data |})
        (fold_left file_curve results []).

  (** max of a list of tuples, [0]: the largest first component. pictures.py:562. *)
  Definition max_first (values : list (Q * Q)) : option Q :=
    match values with
    | [] => None
    | v :: rest => Some (fold_left (fun m w => qmax m (fst w)) rest (fst v))
    end.

  (** pictures.py:525-563 [pictures_time]; :562 takes the first series, IndexError if there is none. *)
  Definition pictures_time (stored : list (string * list (string * list result))) : option (list curves) :=
    match note_problems note_times stored [] with
    | None => None
    | Some [] => None
    | Some ((k, values) :: rest) =>
        match max_first values with
        | None => None
        | Some max_time => Some (plot_results ((k, values) :: rest) (0, max_time))
        end
    end.

  (** pictures.py:476-522 [pictures_from_stats] *)
  Definition pictures_from_stats (stored : list (string * list (string * list result)))
    : option (list curves) :=
    match note_problems note_budgets stored [] with
    | None => None
    | Some results => Some (plot_results results (500, 4500))
    end.

  (** ** plots/pictures.py: the summary *)

  (** A summary picture: the limits of the second axis, the labels of the first, and for every
      algorithm its points (position on the first axis, value) and whether they are joined by a
      line. *)
  Record summary := { s_metric : string; s_ylim : option (R * R); s_labels : list string;
                      s_series : list (string * list (nat * R) * bool) }.

  Local Open Scope R_scope.

  (** pictures.py:649-651 *)
  Definition log_score (m : Q) : R := ln (Rabs (Q2R m) + 1).

  (** pictures.py:642-654: scoring[metric][algo][problem] as one dictionary, and problem_score.
      [None]: an exception in yield_analysis. *)
  Fixpoint score_events (problem : string) (evs : list (string * string * list Q))
           (scoring : list (key3 * R)) (problem_score : list (string * list R))
    : option (list (key3 * R) * list (string * list R)) :=
    match evs with
    | [] => Some (scoring, problem_score)
    | (algo, metric, data) :: rest =>
        match score_of (problem, algo, metric, 0%Q) data with
        | None => None
        | Some m =>
            let score := log_score m in
            score_events problem rest
              (update key3_eqb scoring (metric, algo, problem) 0 (fun _ => score))
              (update String.eqb problem_score metric [] (fun l => (l ++ [score])%list))
        end
    end.

  (** max of the scores, ValueError if there is none. pictures.py:658-669. *)
  Definition max_of (scores : list R) : option R :=
    match scores with
    | [] => None
    | s :: rest => Some (fold_left Rmax rest s)
    end.

  (** The keys of scoring: the metrics seen so far. pictures.py:628-669. *)
  Definition metrics_of (scoring : list (key3 * R)) : list string :=
    nodup string_dec (map (fun e => fst (fst (fst e))) scoring).

  (** pictures.py:664-669 *)
  Definition normalise_algos (metric problem : string) (max_score : R) (names : list string)
             (scoring : list (key3 * R)) : list (key3 * R) :=
    fold_left (fun sc algo =>
                 match lookup key3_eqb sc (metric, algo, problem) with
                 | Some _ => update key3_eqb sc (metric, algo, problem) 0 (fun s => s / max_score)
                 | None => sc
                 end) names scoring.

  (** pictures.py:658-669 *)
  Fixpoint normalise (problem : string) (names : list string) (problem_score : list (string * list R))
           (metrics : list string) (scoring : list (key3 * R)) : option (list (key3 * R)) :=
    match metrics with
    | [] => Some scoring
    | metric :: rest =>
        if String.eqb metric "pdi" then normalise problem names problem_score rest scoring
        else
          match max_of (match lookup String.eqb problem_score metric with Some l => l | None => [] end) with
          | None => None
          | Some top =>
              normalise problem names problem_score rest
                        (normalise_algos metric problem (top + 1 / 10000) names scoring)
          end
    end.

  (** pictures.py:628-669 *)
  Fixpoint summarise (stored : list (string * list (string * list result))) (scoring : list (key3 * R))
    : option (list (key3 * R)) :=
    match stored with
    | [] => Some scoring
    | (problem, algorithms) :: rest =>
        match visited problem algorithms with
        | None => None
        | Some evs =>
            match score_events problem evs scoring [] with
            | None => None
            | Some (scoring', problem_score) =>
                match normalise problem (map fst algorithms) problem_score (metrics_of scoring') scoring' with
                | None => None
                | Some scoring'' => summarise rest scoring''
                end
            end
        end
    end.

  (** pictures.py:576-579: the limits of the second axis. *)
  Definition ylim (metric : string) : option (R * R) :=
    if String.eqb metric "hypervolume" then Some (98 / 100, 1001 / 1000)
    else if String.eqb metric "pdi" then None
    else Some (- (1 / 10), 11 / 10).

  (** pictures.py:583-589: the points of one algorithm. *)
  Fixpoint points_from (scoring : list (key3 * R)) (metric algo : string) (x : nat) (labels : list string)
    : list (nat * R) :=
    match labels with
    | [] => []
    | problem :: rest =>
        ((match lookup key3_eqb scoring (metric, algo, problem) with Some v => [(x, v)] | None => [] end)
         ++ points_from scoring metric algo (S x) rest)%list
    end.

  (** pictures.py:566-610 [plot_results_summary]: the axis has one tick for every problem (:572) and
      one label for every known problem (:573); xticks raises a ValueError if the numbers differ. *)
  Definition plot_results_summary (problems : list string) (scoring : list (key3 * R))
             (selected : list string) : option (list summary) :=
    let labels := filter (fun p => mem p problems) problems_order in
    match metrics_of scoring with
    | [] => Some []
    | metrics =>
        if Nat.eqb (length labels) (length problems)
        then Some (map (fun metric =>
                          {| s_metric := metric; s_ylim := ylim metric; s_labels := labels;
                             s_series := map (fun algo => (algo, points_from scoring metric algo 0 labels,
                                                           mem algo selected)) algos_order |}) metrics)
        else None
    end.

  (** pictures.py:613-671 [pictures_summary]; the problems are directory names, so each occurs once. *)
  Definition pictures_summary (selected : list string)
             (stored : list (string * list (string * list result))) : option (list summary) :=
    match summarise stored [] with
    | None => None
    | Some scoring => plot_results_summary (map fst stored) scoring selected
    end.

  Local Close Scope R_scope.

  (** ** plots/best_fronts.py *)

  (** ea_utils.py:86-103 [split_front]: the loop. *)
  Fixpoint split_loop (epsilon prev_x : Q) (groups : list (list (Q * Q))) (group front : list (Q * Q))
    : list (list (Q * Q)) * list (Q * Q) :=
    match front with
    | [] => (groups, group)
    | (x, y) :: rest =>
        if (Qlt_bool epsilon (x - prev_x) && (1 <? length group)%nat)%bool
        then split_loop epsilon x (groups ++ [group])%list [(x, y)] rest
        else split_loop epsilon x groups (group ++ [(x, y)])%list rest
    end.

  (** Equality of lists of pairs of floats. best_fronts.py:81-119. *)
  Fixpoint same_points (a b : list (Q * Q)) : bool :=
    match a, b with
    | [], [] => true
    | (x, y) :: a', (x', y') :: b' => (Qeq_bool x x' && Qeq_bool y y' && same_points a' b')%bool
    | _, _ => false
    end.

  (** ea_utils.py:86-103 [split_front]; [groups[-1]] is an IndexError for the empty list. *)
  Definition split_front (front : list (Q * Q)) (epsilon : Q) : option (list (list (Q * Q))) :=
    let '(groups, group) := split_loop epsilon 0 [] [] front in
    match rev groups with
    | [] => None
    | last :: _ => Some (if same_points last group then groups else (groups ++ [group])%list)
    end.

  (** [for x, y in pareto_front] (ea_utils.py:91): a ValueError unless every point has two coordinates. *)
  Fixpoint as_pairs (front : list (list Q)) : option (list (Q * Q)) :=
    match front with
    | [] => Some []
    | [x; y] :: rest => match as_pairs rest with Some l => Some ((x, y) :: l) | None => None end
    | _ => None
    end.

  (** best_fronts.py:24-56 [plot_problem_front] and [plot_front]: the lines the problem's front is drawn
      as; IndexError for an empty front (:26) or a point with fewer than two coordinates. *)
  Definition plot_problem_front (multimodal : bool) (original_front : list (list Q))
    : option (list (list (list Q))) :=
    match original_front with
    | [] => None
    | _ =>
        if multimodal
        then match as_pairs original_front with
             | None => None
             | Some pts => option_map (map (map (fun p => [fst p; snd p]))) (split_front pts (5 # 100))
             end
        else if forallb (fun v => 2 <=? length v)%nat original_front then Some [original_front] else None
    end.

  (** best_fronts.py:81-119 [plot_results]: the points drawn in the algorithm's colour and those drawn
      in the colour for non-dominated points.  The populations hold points of a type [A];
      [highlighted] is the membership test [tuple(x) in nondominated].  IndexError (:92) for an
      empty population. *)
  Definition scatter {A} (highlighted : A -> bool) (fitnesses : list A) : option (list A * list A) :=
    match fitnesses with
    | [] => None
    | _ => Some (filter (fun x => negb (highlighted x)) fitnesses, filter highlighted fitnesses)
    end.

  (** A picture of one problem: the lines of its front, and for every algorithm the points in its own
      colour and the highlighted ones. *)
  Record fronts (A : Type) := { f_problem : string; f_front : list (list (list Q));
                                f_drawn : list (string * list A * list A) }.
  Arguments f_problem {A}.
  Arguments f_front {A}.
  Arguments f_drawn {A}.

  Section Fronts.
    Variable A : Type.
    (** problem_mod.pareto_front of the problem with this name. *)
    Variable pareto_front : string -> list (list Q).
    (** result["results"] of the result with this problem, algorithm and budget: the populations
        (fitness vectors) of its runs, in the order of the run directories. *)
    Variable runs : string -> string -> Q -> list (list A).

    (** best_fronts.py:193-198, 158-164: the population drawn for an algorithm: the first run
        (IndexError if there is none) of the acceptable result, if the plots know the algorithm. *)
    Fixpoint chosen (problem : string) (stored : list (string * list result))
      : option (list (string * list A)) :=
      match stored with
      | [] => Some []
      | (algo, results) :: rest =>
          match find_acceptable boot_size _ randint
                  (fun r => (problem, algo, "cost", r_budget r)) results with
          | None => None
          | Some None => chosen problem rest
          | Some (Some r) =>
              if mem algo algos
              then
                match runs problem algo (r_budget r), chosen problem rest with
                | first :: _, Some more => Some ((algo, first) :: more)
                | _, _ => None
                end
              else chosen problem rest
          end
      end.

    (** best_fronts.py:81-119, 149-180: one scatter after the other. *)
    Fixpoint draw_all (highlighted : A -> bool) (pops : list (string * list A))
      : option (list (string * list A * list A)) :=
      match pops with
      | [] => Some []
      | (algo, fitnesses) :: rest =>
          match scatter highlighted fitnesses, draw_all highlighted rest with
          | Some (plain, marked), Some more => Some ((algo, plain, marked) :: more)
          | _, _ => None
          end
      end.

    (** best_fronts.py:183-199 [best_fronts]: nothing is highlighted (nondominated=set()). *)
    Fixpoint best_fronts (stored : list (string * list (string * list result)))
      : option (list (fronts A)) :=
      match stored with
      | [] => Some []
      | (problem, algorithms) :: rest =>
          match chosen problem algorithms with
          | None => None
          | Some pops =>
              match plot_problem_front (String.eqb problem "ZDT3") (pareto_front problem),
                    draw_all (fun _ => false) pops, best_fronts rest with
              | Some front, Some drawn, Some more =>
                  Some ({| f_problem := problem; f_front := front; f_drawn := drawn |} :: more)
              | _, _, _ => None
              end
          end
      end.
  End Fronts.

  (** best_fronts.py:149-180 [best_fronts_color_nondom]: the points of all drawn populations of the
      problem are filtered (metrics.filter_not_dominated) and those left are highlighted.  Problems
      without any drawn population get no picture (scoring has no entry). *)
  Fixpoint color_nondom (pareto_front : string -> list (list Q)) (runs : string -> string -> Q -> list (list vec))
           (stored : list (string * list (string * list result))) : option (list (fronts vec)) :=
    match stored with
    | [] => Some []
    | (problem, algorithms) :: rest =>
        match chosen vec runs problem algorithms with
        | None => None
        | Some pops =>
            let all := flat_map snd pops in
            let nondominated := filter_not_dominated (fun v => v) all in
            match pops, plot_problem_front (String.eqb problem "ZDT3") (pareto_front problem),
                  draw_all vec (fun v => existsb (vec_eqb v) nondominated) pops,
                  color_nondom pareto_front runs rest with
            | [], _, _, more => more
            | _, Some front, Some drawn, Some more =>
                Some ({| f_problem := problem; f_front := front; f_drawn := drawn |} :: more)
            | _, _, _, _ => None
            end
        end
    end.
End Reading.
Arguments f_problem {A}.
Arguments f_front {A}.
Arguments f_drawn {A}.
