(** What the pictures should show, in terms of the stored results alone. *)
From Coq Require Import Reals Qreals.
From Verif Require Import StatModel StatSpec.
From Verif Require Import Spec.
Local Open Scope Q_scope.
Local Open Scope string_scope.

(** The algorithms that have a place in the curves, violins and summaries, in the order of the
    legend. *)
Definition curve_names : list string :=
  ["NSGAII"; "IBEA"; "OMOPSO"; "NSGAIII"; "JGBL"; "NSLS";
   "IMGA+NSGAII"; "IMGA+IBEA"; "IMGA+OMOPSO"; "IMGA+NSGAIII"; "IMGA+JGBL"; "IMGA+NSLS";
   "HGS+NSGAII"; "HGS+IBEA"; "HGS+OMOPSO"; "HGS+NSGAIII"; "HGS+JGBL"; "HGS+NSLS";
   "DHGS+NSGAII"; "DHGS+IBEA"; "DHGS+OMOPSO"; "DHGS+NSGAIII"; "DHGS+JGBL"; "DHGS+NSLS"].

(** The algorithms that have a place in the pictures of fronts: these and the ones with SPEA2. *)
Definition front_name (algo : string) : Prop :=
  In algo curve_names \/ In algo ["SPEA2"; "IMGA+SPEA2"; "HGS+SPEA2"; "DHGS+SPEA2"].

(** The algorithms a run without options stores results of (those that "evogil.py list" prints). *)
Definition offered (algo : string) : Prop :=
  exists driver, In driver ["SPEA2"; "IBEA"; "NSGAII"; "OMOPSO"; "NSGAIII"; "JGBL"; "SMSEMOA"; "NSLS"]
    /\ (algo = driver \/ exists meta, In meta ["IMGA"; "HGS"; "DHGS"] /\ algo = (meta ++ "+" ++ driver)%string).

(** The problems the summary knows. *)
Definition summary_problems : list string :=
  ["EWA1"; "EWA2"; "ZDT1"; "ZDT2"; "ZDT3"; "ZDT4"; "ZDT6"; "UF1"; "UF2"; "UF3"; "UF4"; "UF5"; "UF6";
   "UF7"; "UF8"; "UF9"; "UF10"; "UF11"; "UF12"].

(** Only the ranked metrics are drawn. *)
Definition drawn_metric (metric : string) : Prop := exists larger tol, ranked metric larger tol.

(** ** Violins *)

(** The values drawn for an algorithm: those of the metric in the runs of its accepted result, with
    the machine epsilon in place of zeros; nothing is drawn if all are zero. *)
Definition violin_of (algos : list (string * list result)) (metric algo : string) (values : list Q) : Prop :=
  exists rs r data, In (algo, rs) algos /\ accepted rs r /\ has_metric r metric data
    /\ (exists x, In x data /\ ~ x == 0)
    /\ Forall2 (fun x v => (x == 0 -> v == machine_eps) /\ (~ x == 0 -> v = x)) data values.

(** ** Curves *)

(** The times of the stored results increase. *)
Definition chronological (rs : list result) : Prop :=
  StronglySorted (fun a b => r_budget a < r_budget b) rs.

(** The curve of a metric: one point for every stored time at which there is a value of it: the time
    and the mean over the runs. *)
Definition curve (rs : list result) (metric : string) (line : list (Q * Q)) : Prop :=
  line <> [] /\
  exists having, selects (fun r => exists d, has_metric r metric d) rs having
    /\ Forall2 (fun r p => fst p = r_budget r /\ exists d, has_metric r metric d /\ is_mean d (snd p))
               having line.

(** The same with the mean cost of the runs in place of the time; the points from left to right. *)
Definition cost_curve (rs : list result) (metric : string) (line : list (Q * Q)) : Prop :=
  line <> [] /\
  StronglySorted (fun p q => fst p <= fst q) line /\
  exists having points, selects (fun r => exists d, has_metric r metric d) rs having
    /\ Permutation points line
    /\ Forall2 (fun r p => (exists c, has_metric r "cost" c /\ is_mean c (fst p))
                           /\ exists d, has_metric r metric d /\ is_mean d (snd p))
               having points.

(** Every algorithm with a value of a drawn metric has a place in the legend. *)
Definition all_known (stored : list (string * list (string * list result))) : Prop :=
  forall p algos a rs r m d, In (p, algos) stored -> In (a, rs) algos -> In r rs ->
    has_metric r m d -> drawn_metric m -> In a curve_names.

(** ** Summary *)

(** [s] is the score of the algorithm: the mean of the metric over the runs of its accepted result. *)
Definition score_in (metric : string) (algos : list (string * list result)) (algo : string) (s : Q) : Prop :=
  exists rs r data, In (algo, rs) algos /\ accepted rs r /\ has_metric r metric data /\ is_mean data s.

(** The logarithm of a score. *)
Definition magnitude (s : Q) : R := ln (1 + Rabs (Q2R s)).

(** The largest one of any algorithm on the problem. *)
Definition top_score (metric : string) (algos : list (string * list result)) (top : R) : Prop :=
  (exists a s, score_in metric algos a s /\ top = magnitude s)
  /\ forall a s, score_in metric algos a s -> (magnitude s <= top)%R.

(** [v] is drawn for the algorithm: the logarithm of the score relative to the largest one, for "pdi"
    the logarithm itself. *)
Definition summary_value (metric : string) (algos : list (string * list result)) (algo : string) (v : R) : Prop :=
  exists s, score_in metric algos algo s
    /\ (metric = "pdi" -> v = magnitude s)
    /\ (metric <> "pdi" -> exists top, top_score metric algos top /\ v = (magnitude s / (top + 1 / 10000))%R).

(** The problem has a score of some algorithm in this metric. *)
Definition has_score (metric : string) (algos : list (string * list result)) : Prop :=
  exists algo rs r data, In (algo, rs) algos /\ accepted rs r /\ has_metric r metric data.

(** Every problem has a score in the metrics (but "pdi") that an earlier one has a score in. *)
Definition even_metrics (stored : list (string * list (string * list result))) : Prop :=
  forall before p algos after m, stored = (before ++ (p, algos) :: after)%list -> m <> "pdi" -> drawn_metric m ->
    (exists p' algos', In (p', algos') before /\ has_score m algos') -> has_score m algos.

(** ** Fronts *)

(** The population drawn for an algorithm: the first run of its accepted result. *)
Definition front_of {A} (runs : string -> string -> Q -> list (list A)) (problem : string)
           (algos : list (string * list result)) (algo : string) (population : list A) : Prop :=
  front_name algo /\
  exists rs r more, In (algo, rs) algos /\ accepted rs r
    /\ runs problem algo (r_budget r) = population :: more.

(** Consecutive elements of a list. *)
Definition next {A} (l : list A) (a b : A) : Prop := exists p q, l = (p ++ a :: b :: q)%list.

(** The front of an ordinary problem; the front of ZDT3, whose points lie from left to right in
    several pieces. *)
Definition plain_front (problem : string) (front : list (list Q)) : Prop :=
  problem <> "ZDT3" /\ front <> [] /\ forall v, In v front -> (2 <= length v)%nat.
Definition cut_front (problem : string) (front : list (list Q)) : Prop :=
  problem = "ZDT3" /\ (forall v, In v front -> length v = 2%nat)
  /\ StronglySorted (fun a b => hd 0 a <= hd 0 b) front
  /\ exists p a b q, front = (p ++ a :: b :: q)%list /\ p <> [] /\ 5 # 100 < hd 0 b - hd 0 a.

(** The results that are to be drawn have a first run, and its population is not empty. *)
Definition has_populations {A} (runs : string -> string -> Q -> list (list A)) (problem : string)
           (algos : list (string * list result)) : Prop :=
  forall a rs r, In (a, rs) algos -> accepted rs r -> front_name a ->
    exists population more, runs problem a (r_budget r) = population :: more /\ population <> [].

(** [pieces] of a front: cut wherever the first coordinate grows by more than [eps], but never right
    after the first point of a piece. *)
Definition pieces (eps : Q) (front : list (Q * Q)) (gs : list (list (Q * Q))) : Prop :=
  concat gs = front
  /\ (forall g, In g gs -> g <> []
        /\ forall p a b q, g = (p ++ a :: b :: q)%list -> eps < fst b - fst a -> p = [])
  /\ (forall g g', next gs g g' ->
        exists h a b t, h <> [] /\ g = (h ++ [a])%list /\ g' = (b :: t)%list /\ eps < fst b - fst a).

(** No point drawn for the problem dominates [v]. *)
Definition undominated (runs : string -> string -> Q -> list (list vec)) (problem : string)
           (algos : list (string * list result)) (v : vec) : Prop :=
  forall a population w, front_of runs problem algos a population -> In w population -> ~ pareto_dom w v.
