(** Model of the statistics over stored results.
    Source: statistic/stats_bootstrap.py, statistic/ranking.py, statistic/stats.py.
    Floats are rational numbers (exact).  No proofs here. *)
From Verif Require Export Spec SortModel.
From Coq Require Export String QArith.
Export Datatypes List ListNotations.
From Coq Require Import Qround.
Local Open Scope Q_scope.

(** A float that may be minus infinity. stats_bootstrap.py:29-32, 81-93. *)
Inductive ext := NegInf | Fin (q : Q).

(** [<=] on floats. stats_bootstrap.py:41-48. *)
Definition ext_leb (a b : ext) : bool :=
  match a, b with
  | NegInf, _ => true
  | Fin _, NegInf => false
  | Fin x, Fin y => Qle_bool x y
  end.

(** [x < y] on floats. stats_bootstrap.py:6-14, 68-77. *)
Definition Qlt_bool (x y : Q) : bool := negb (Qle_bool y x).

(** The builtins sum and len. stats_bootstrap.py:29-32. *)
Definition qsum (xs : list Q) : Q := fold_left Qplus xs 0.
(** stats_bootstrap.py:29-32: len. *)
Definition qlen {A} (xs : list A) : Q := inject_Z (Z.of_nat (length xs)).

(** stats_bootstrap.py:29-32 [average] *)
Definition average (xs : list Q) : ext :=
  match xs with
  | [] => NegInf
  | _ => Fin (qsum xs / qlen xs)
  end.

(** stats_bootstrap.py:35-38 [sample_wr]; [randint j n] is the j-th call of random.randint(0, n).
    [None] is an IndexError. *)
Fixpoint sample_loop (randint : nat -> nat -> nat) (population : list Q) (js : list nat)
  : option (list Q) :=
  match js with
  | [] => Some []
  | j :: js' =>
      match nth_error population (randint j (length population - 1)%nat),
            sample_loop randint population js' with
      | Some x, Some xs => Some (x :: xs)
      | _, _ => None
      end
  end.
(** stats_bootstrap.py:35-38. *)
Definition sample_wr (randint : nat -> nat -> nat) (population : list Q) (k : nat) : option (list Q) :=
  sample_loop randint population (seq 0 k).

(** stats_bootstrap.py:42, the generator: the averages of [n] samples. *)
Fixpoint resample_loop (randint : nat -> nat -> nat -> nat) (population : list Q) (k : nat)
         (is : list nat) : option (list ext) :=
  match is with
  | [] => Some []
  | i :: is' =>
      match sample_wr (randint i) population k, resample_loop randint population k is' with
      | Some s, Some r => Some (average s :: r)
      | _, _ => None
      end
  end.
(** stats_bootstrap.py:42. *)
Definition resample_means randint population (n k : nat) : option (list ext) :=
  resample_loop randint population k (seq 0 n).

(** stats_bootstrap.py:43-48. *)
Record btstrp := { b_from : ext; b_to : ext; b_metrics : ext }.

(** int(x) for a non-negative float. stats_bootstrap.py:43-48. *)
Definition int_of (x : Q) : nat := Z.to_nat (Qfloor x).

(** stats_bootstrap.py:41-48 [bootstrap] with f = average (the only use).  [None] is an
    IndexError. *)
Definition bootstrap (randint : nat -> nat -> nat -> nat) (population : list Q) (n k : nat)
           (alpha : Q) : option btstrp :=
  match resample_means randint population n k with
  | None => None
  | Some means =>
      let sorted := stable_sort ext_leb means in
      match nth_error sorted (int_of (inject_Z (Z.of_nat n) * alpha)),
            nth_error sorted (int_of (inject_Z (Z.of_nat n) * (1 - alpha))) with
      | Some lo, Some hi =>
          Some {| b_from := lo; b_to := hi; b_metrics := average population |}
      | _, _ => None
      end
  end.

(** numpy.percentile(xs, p) with the default linear interpolation: the element at the virtual
    index (n - 1) * p / 100 of the sorted data.  [None]: no data (numpy raises IndexError). *)
Definition percentile (xs : list Q) (p : Z) : option Q :=
  let a := stable_sort Qle_bool xs in
  match xs with
  | [] => None
  | _ =>
      let v := ((Z.of_nat (length xs) - 1) * p)%Z in
      let j := Z.to_nat (v / 100) in
      let lo := nth j a 0 in
      let hi := nth (Nat.min (S j) (length xs - 1)%nat) a 0 in
      Some (lo + (hi - lo) * ((v mod 100) # 100))
  end.

(** The counts are the numbers before they are formatted as percentages (:68-77); the standard
    deviations and the derived percentages (:81-93, :114-132) are left out. *)
Record analysis := {
  a_low_inn : Q; a_upp_inn : Q; a_low_out : Q; a_upp_out : Q;
  a_extr : nat; a_mild : Z; a_nooutliers : ext;
  a_mean : Q; a_variance : Q; a_good : bool; a_btstrpd : btstrp }.

(** stats_bootstrap.py:104-106 [lower <= x <= upper] with lower = mean - 3 * stdev and
    upper = mean + 3 * stdev, stdev = sqrt(variance).  Simplified: the square root is squared
    out, |x - mean| <= 3 * stdev as (x - mean)^2 <= 9 * variance. *)
Definition in_band (mean variance x : Q) : bool :=
  Qle_bool ((x - mean) * (x - mean)) (9 * variance).

(** stats_bootstrap.py:51-153 [yield_analysis]. *)
Definition yield_analysis (randint : nat -> nat -> nat -> nat) (data : list Q) (boot_size : nat)
  : option analysis :=
  match percentile data 25, percentile data 75 with
  | Some q1, Some q3 =>
      let iq := q3 - q1 in
      let low_inn := q1 - (3 # 2) * iq in
      let upp_inn := q3 + (3 # 2) * iq in
      let low_out := q1 - 3 * iq in
      let upp_out := q3 + 3 * iq in
      let extr := length (filter (fun x => Qlt_bool x low_out || Qlt_bool upp_out x)%bool data) in
      let mild := (Z.of_nat (length (filter (fun x => Qlt_bool x low_inn || Qlt_bool upp_inn x)%bool
                                            data)) - Z.of_nat extr)%Z in
      let inliers := filter (fun x => Qle_bool low_inn x && Qle_bool x upp_inn)%bool data in
      match bootstrap randint data boot_size (int_of (qlen data * (66 # 100))) (25 # 1000) with
      | None => None
      | Some b =>
          match average data with
          | NegInf => None
          | Fin mean =>
              let variance := qsum (map (fun x => (x - mean) * (x - mean)) data) / qlen data in
              Some {| a_low_inn := low_inn; a_upp_inn := upp_inn;
                      a_low_out := low_out; a_upp_out := upp_out;
                      a_extr := extr; a_mild := mild; a_nooutliers := average inliers;
                      a_mean := mean; a_variance := variance;
                      a_good := negb (Qlt_bool (qlen (filter (in_band mean variance) data))
                                               ((95 # 100) * qlen data));
                      a_btstrpd := b |}
          end
      end
  | _, _ => None
  end.

(** ** The report on a suspicious result (statistic/stats.py:135-243) *)

(** One printed value and its three labels (stats.py:177-222). *)
Record line := { l_value : Q; l_out_of_band : bool; l_mild : bool; l_extreme : bool }.

(** stats.py:142-222: one line. *)
Definition report_line (a : analysis) (x : Q) : line :=
  {| l_value := x;
     l_out_of_band := in_band (a_mean a) (a_variance a) x;
     l_mild := ((Qle_bool (a_low_out a) x && Qlt_bool x (a_low_inn a))
                || (Qle_bool (a_upp_inn a) x && Qlt_bool x (a_upp_out a)))%bool;
     l_extreme := (Qlt_bool x (a_low_out a) || Qlt_bool (a_upp_out a) x)%bool |}.

(** stats.py:142-167: the number printed as "out of [ lower ; upper ]", and the lines; printed only
    if the analysis is not good (:135).  The text around the numbers is left out. *)
Record report := { r_out_of : nat; r_total : nat; r_lines : list line }.

(** stats.py:135-222. *)
Definition suspicious (a : analysis) (data : list Q) : option report :=
  if a_good a then None
  else Some {| r_out_of := length (filter (in_band (a_mean a) (a_variance a)) data);
               r_total := length data;
               r_lines := map (report_line a) data |}.

(** ** Choosing the result to rank *)

(** One element of each_result's lists (serialization.py): the budget and the generator
    result["analysis"], as the list of what it has yet to yield: metric names with the
    metric's value in each run (metrics_processor.py:18-67). *)
Record result := { r_budget : Q; r_analysis : list (string * list Q) }.

Section Ranking.
  Variable boot_size : nat.
  (** [randint c i j n]: the j-th draw of the i-th sample of call [c] of yield_analysis. *)
  Variable call : Type.
  Variable randint : call -> nat -> nat -> nat -> nat.

  (** stats_bootstrap.py:6-14 [validate_cost]: the verdict and what is left in the generator;
      [None] is an exception. *)
  Fixpoint validate_loop (c : call) (budget delta : Q) (items : list (string * list Q))
    : option (bool * list (string * list Q)) :=
    match items with
    | [] => Some (true, [])
    | (name, data) :: rest =>
        if String.eqb name "cost" then
          match yield_analysis (randint c) data boot_size with
          | None => None
          | Some a => Some (ext_leb (b_metrics (a_btstrpd a)) (Fin (budget + delta)), rest)
          end
        else validate_loop c budget delta rest
    end.
  (** stats_bootstrap.py:6-14. *)
  Definition validate_cost (c : call) (r : result) (delta : Q) :=
    validate_loop c (r_budget r) delta (r_analysis r).

  (** stats_bootstrap.py:20-26, the loop over the reversed list: the chosen result, with its
      generator advanced.  The outer [None] is an exception. *)
  Fixpoint find_loop (c : result -> call) (delta prev_budget : Q) (rs : list result)
    : option (option result) :=
    match rs with
    | [] => Some None
    | r :: rs' =>
        let budget := r_budget r in
        let delta' := delta + (prev_budget - budget) in
        match validate_cost (c r) r delta' with
        | None => None
        | Some (true, rest) => Some (Some {| r_budget := budget; r_analysis := rest |})
        | Some (false, _) => find_loop c delta' budget rs'
        end
    end.

  (** stats_bootstrap.py:17-26 [find_acceptable_result_for_budget]; [None] is an exception
      (IndexError for an empty list). *)
  Definition find_acceptable (c : result -> call) (results : list result)
    : option (option result) :=
    match rev results with
    | [] => None
    | last :: _ => find_loop c 500 (r_budget last) (rev results)
    end.
End Ranking.

(** ** Ranking (statistic/ranking.py) *)

(** ranking.py:14-33: the metrics ranked, whether larger is better, and the tolerance. *)
Definition best_func (metric : string) : option bool :=
  if String.eqb metric "hypervolume" then Some true
  else if String.eqb metric "pdi" then Some true
  else if (String.eqb metric "igd" || String.eqb metric "ahd"
           || String.eqb metric "spacing" || String.eqb metric "gd")%bool then Some false
  else None.
(** ranking.py:14-22. *)
Definition winner_tolerance (metric : string) : Q :=
  if (String.eqb metric "hypervolume" || String.eqb metric "pdi")%bool then 5 # 1000 else 5 # 100.

(** sys.float_info.epsilon. ranking.py:39. *)
Definition epsilon : Q := 1 # (2 ^ 52).

(** ranking.py:44: min. *)
Definition qmin (a b : Q) : Q := if Qle_bool a b then a else b.
(** ranking.py:44: max. *)
Definition qmax (a b : Q) : Q := if Qle_bool a b then b else a.

(** ranking.py:38-46 [get_weak_winners]; [None] is a ZeroDivisionError. *)
Fixpoint get_weak_winners (scoring : list (string * Q)) (winner : string * Q) (error_rate : Q)
  : option (list (string * Q)) :=
  match scoring with
  | [] => Some []
  | (algo, score) :: rest =>
      if String.eqb algo (fst winner) then get_weak_winners rest winner error_rate
      else
        let den := qmax score (snd winner) + epsilon in
        if Qeq_bool den 0 then None
        else
          match get_weak_winners rest winner error_rate with
          | None => None
          | Some ws =>
              Some (if Qle_bool (1 - error_rate) ((qmin score (snd winner) + epsilon) / den)
                    then (algo, score) :: ws else ws)
          end
  end.

(** min / max with key=lambda x: x[1]: the first element with the best score.
    ranking.py:26-33, 276. *)
Definition best_of (larger : bool) (scoring : list (string * Q)) : option (string * Q) :=
  match scoring with
  | [] => None
  | s :: rest =>
      Some (fold_left (fun best x =>
                         if (if larger then Qlt_bool (snd best) (snd x)
                             else Qlt_bool (snd x) (snd best))
                         then x else best) rest s)
  end.

(** ranking.py:276-289: the names one (problem, metric) pair adds to the counter of its metric. *)
Definition award (metric : string) (larger : bool) (scoring : list (string * Q))
  : option (list string) :=
  match best_of larger scoring with
  | None => None
  | Some w =>
      match get_weak_winners scoring w (winner_tolerance metric) with
      | None => None
      | Some [] => Some [fst w; fst w]
      | Some ws => Some (fst w :: map fst ws)
      end
  end.

(** A defaultdict(list) keyed by (problem, metric), in insertion order.
    ranking.py:237-247. *)
Definition key := (string * string)%type.
(** ranking.py:237-247: equality of such keys. *)
Definition key_eqb (a b : key) : bool :=
  (String.eqb (fst a) (fst b) && String.eqb (snd a) (snd b))%bool.
(** ranking.py:263-269: d[k].append(x). *)
Fixpoint append_to {B} (d : list (key * list B)) (k : key) (x : B) : list (key * list B) :=
  match d with
  | [] => [(k, [x])]
  | (k', xs) :: d' => if key_eqb k' k then (k', (xs ++ [x])%list) :: d' else (k', xs) :: append_to d' k x
  end.

Section Rank.
  Variable boot_size : nat.
  Variable randint : string * string * string * Q -> nat -> nat -> nat -> nat.

  (** ranking.py:256-269: the scores of the accepted result's remaining metrics. *)
  Fixpoint score_loop (problem algo : string) (budget : Q) (items : list (string * list Q))
           (scoring : list (key * list (string * Q))) : option (list (key * list (string * Q))) :=
    match items with
    | [] => Some scoring
    | (metric, data) :: rest =>
        match best_func metric with
        | None => score_loop problem algo budget rest scoring
        | Some _ =>
            match yield_analysis (randint (problem, algo, metric, budget)) data boot_size with
            | None => None
            | Some a =>
                match b_metrics (a_btstrpd a) with
                | NegInf => None
                | Fin score =>
                    score_loop problem algo budget rest
                               (append_to scoring (problem, metric) (algo, score))
                end
            end
        end
    end.

  (** ranking.py:251-269 *)
  Fixpoint algo_loop (problem : string) (algos : list (string * list result))
           (scoring : list (key * list (string * Q))) : option (list (key * list (string * Q))) :=
    match algos with
    | [] => Some scoring
    | (algo, results) :: rest =>
        match find_acceptable boot_size _ randint
                (fun r => (problem, algo, "cost"%string, r_budget r)) results with
        | None => None
        | Some None => algo_loop problem rest scoring
        | Some (Some r) =>
            match score_loop problem algo (r_budget r) (r_analysis r) scoring with
            | None => None
            | Some scoring' => algo_loop problem rest scoring'
            end
        end
    end.

  (** ranking.py:248-269 *)
  Fixpoint problem_loop (stored : list (string * list (string * list result)))
           (scoring : list (key * list (string * Q))) : option (list (key * list (string * Q))) :=
    match stored with
    | [] => Some scoring
    | (problem, algos) :: rest =>
        match algo_loop problem algos scoring with
        | None => None
        | Some scoring' => problem_loop rest scoring'
        end
    end.

  (** ranking.py:274-289: all names added to the counters, tagged with the metric. *)
  Fixpoint award_loop (scoring : list (key * list (string * Q))) : option (list (string * string)) :=
    match scoring with
    | [] => Some []
    | ((_, metric), metric_scoring) :: rest =>
        match best_func metric with
        | None => None
        | Some larger =>
            match award metric larger metric_scoring, award_loop rest with
            | Some names, Some more => Some ((map (fun a => (metric, a)) names ++ more)%list)
            | _, _ => None
            end
        end
    end.

  (** ranking.py:237-299 [rank]: the counter of every metric, as a function from metric and
      algorithm to points.  Printing is left out. *)
  Definition rank (stored : list (string * list (string * list result)))
    : option (string -> string -> nat) :=
    match problem_loop stored [] with
    | None => None
    | Some scoring =>
        match award_loop scoring with
        | None => None
        | Some names =>
            Some (fun metric algo =>
                    length (filter (fun p => key_eqb p (metric, algo)) names))
        end
    end.
End Rank.
