(** Model of the statistics report (command stats).
    Source: statistic/stats.py:48-248 (force_data, statistics), statistic/stats_bootstrap.py:117-120.
    No proofs here.  The report is the sequence of what is printed; widths, colours and number formats are
    left out, the text of the report on a suspicious result is in StatModel. *)
From Coq Require Import Qabs.
From Verif Require Import StatModel.
Local Open Scope nat_scope.

(** A stored result: its budget, the length of the population of every run ([None]: the object has no
    length) and the metrics with their values in the runs.
    simulation/serialization.py:90-116, statistic/stats.py:92-97. *)
Record entry := { e_budget : Z; e_populations : list (option nat); e_analysis : list (string * list Q) }.
(** What each_result yields: problems, their algorithms, their results.  statistic/stats.py:86-92. *)
Definition archive := list (string * list (string * list entry)).

(** A line of the report is about a problem, an algorithm, a budget and a metric.
    statistic/stats.py:227-234. *)
Definition subject := (string * string * Z * string)%type.

(** What is printed.  statistic/stats.py:72-82, 117-132, 135-243, 245-248. *)
Inductive item :=
| Heading
| Dashes
| Row (about : subject) (runs : nat) (figures : analysis)
| Details (about : subject) (what : report)
| Untrusted (about : subject)
| Probably_fine (about : subject)
| Listed (about : subject).

(** How it ends: normally or with an exception. *)
Inductive ending := Finished | Raised.

(** statistic/stats.py:95-97: average([len(x.population) ...]); None = TypeError. *)
Fixpoint lengths (l : list (option nat)) : option (list nat) :=
  match l with
  | [] => Some []
  | None :: _ => None
  | Some n :: l' => match lengths l' with Some ns => Some (n :: ns) | None => None end
  end.

(** abs(analysis["mean_nooutliers_diff"]) > 10.0 with
    mean_nooutliers_diff = 100.0 * (mean_nooutliers - mean) / mean, infinite if that divides by zero.
    statistic/stats.py:226, statistic/stats_bootstrap.py:117-120.  Simplified: exact arithmetic. *)
Definition changed_a_lot (a : analysis) : bool :=
  match a_nooutliers a with
  | NegInf => true
  | Fin m => if Qeq_bool (a_mean a) 0 then true
             else Qlt_bool 10 (Qabs (100 * (m - a_mean a) / a_mean a))
  end.

Section Report.
  Variable boot_size : nat.
  Variable randint : subject -> nat -> nat -> nat -> nat.

  (** statistic/stats.py:48-53 [force_data] mapped over the metrics by the pool, which keeps the order
      (:107-111); None = an exception in one of them. *)
  Fixpoint force_all (p a : string) (b : Z) (items : list (string * list Q)) : option (list (string * list Q * analysis)) :=
    match items with
    | [] => Some []
    | (m, data) :: rest =>
        match yield_analysis (randint (p, a, b, m)) data boot_size, force_all p a b rest with
        | Some an, Some more => Some ((m, data, an) :: more)
        | _, _ => None
        end
    end.

  (** statistic/stats.py:113-243: the lines of one result; [first] is first_budget_line, [fresh_head]
      header_just_printed.  Returns what is printed, the entries added to badbench and
      header_just_printed. *)
  Fixpoint rows (p a : string) (b : Z) (items : list (string * list Q * analysis)) (first fresh_head : bool)
    : list item * list subject * bool :=
    match items with
    | [] => ([], [], fresh_head)
    | (m, data, an) :: rest =>
        let about := (p, a, b, m) in
        let '(printed, bad, fh) := rows p a b rest false false in
        let dashes := if (first && negb fresh_head)%bool then [Dashes] else [] in
        let '(more, worse) :=
          match suspicious an data with
          | None => ([], [])
          | Some r => if changed_a_lot an then ([Details about r; Untrusted about], [about])
                      else ([Details about r; Probably_fine about], [])
          end in
        ((dashes ++ Row about (length data) an :: more ++ printed)%list, (worse ++ bad)%list, fh)
    end.

  (** statistic/stats.py:92-243: the results of one algorithm. *)
  Fixpoint budgets (p a : string) (es : list entry) (fresh_head : bool) : list item * list subject * ending :=
    match es with
    | [] => ([], [], Finished)
    | e :: rest =>
        match lengths (e_populations e) with
        | None => ([], [], Raised)
        | Some _ =>
            match force_all p a (e_budget e) (e_analysis e) with
            | None => ([], [], Raised)
            | Some items =>
                let '(printed, bad, fh) := rows p a (e_budget e) items true fresh_head in
                let '(printed', bad', how) := budgets p a rest fh in
                ((printed ++ printed')%list, (bad ++ bad')%list, how)
            end
        end
    end.

  (** statistic/stats.py:89-243: the algorithms of one problem. *)
  Fixpoint algorithms (p : string) (l : list (string * list entry)) : list item * list subject * ending :=
    match l with
    | [] => ([], [], Finished)
    | (a, es) :: rest =>
        let '(printed, bad, how) := budgets p a es true in
        match how with
        | Raised => (Heading :: printed, bad, Raised)
        | Finished =>
            let '(printed', bad', how') := algorithms p rest in
            (Heading :: printed ++ printed', bad ++ bad', how')%list
        end
    end.

  (** statistic/stats.py:86-243: all problems. *)
  Fixpoint problems (l : archive) : list item * list subject * ending :=
    match l with
    | [] => ([], [], Finished)
    | (p, algos) :: rest =>
        let '(printed, bad, how) := algorithms p algos in
        match how with
        | Raised => (printed, bad, Raised)
        | Finished => let '(printed', bad', how') := problems rest in (printed ++ printed', bad ++ bad', how')%list
        end
    end.

  (** statistic/stats.py:56-248 [statistics]: the whole report; the list of untrusted results comes
      last. *)
  Definition statistics (stored : archive) : list item * ending :=
    let '(printed, bad, how) := problems stored in
    match how with
    | Raised => (printed, Raised)
    | Finished => ((printed ++ map Listed bad)%list, Finished)
    end.
End Report.
