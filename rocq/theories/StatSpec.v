(** What the statistics should mean, in terms of the data alone. *)
From Verif Require Import StatModel.
From Coq Require Import Qabs.
Local Open Scope Q_scope.

Definition total (data : list Q) : Q := fold_right Qplus 0 data.
Definition size {A} (data : list A) : Q := inject_Z (Z.of_nat (length data)).

(** [m] is the arithmetic mean of the data. *)
Definition is_mean (data : list Q) (m : Q) : Prop := m * size data == total data.

(** Counting the elements with a property. *)
Definition at_least {A} (k : nat) (P : A -> Prop) (data : list A) : Prop :=
  exists yes rest, Permutation (yes ++ rest) data /\ (k <= length yes)%nat /\ Forall P yes.
Definition exactly {A} (k : nat) (P : A -> Prop) (data : list A) : Prop :=
  exists yes no, Permutation (yes ++ no) data /\ length yes = k
                 /\ Forall P yes /\ Forall (fun x => ~ P x) no.

(** The [p]-quantile with linear interpolation between order statistics. *)
Definition quantile (p : Q) (data : list Q) (q : Q) : Prop :=
  exists a, Permutation a data /\ StronglySorted Qle a /\
    let v := p * (size data - 1) in
    forall i x, nth_error a i = Some x -> inject_Z (Z.of_nat i) <= v ->
      (v == inject_Z (Z.of_nat i) -> q == x)
      /\ (forall y, nth_error a (S i) = Some y -> v <= inject_Z (Z.of_nat i) + 1 ->
            q == x + (v - inject_Z (Z.of_nat i)) * (y - x)).

(** Tukey's fences of an analysis around two quartiles. *)
Definition fences (a : analysis) (q1 q3 : Q) : Prop :=
  a_low_inn a == q1 - (3 # 2) * (q3 - q1) /\ a_upp_inn a == q3 + (3 # 2) * (q3 - q1)
  /\ a_low_out a == q1 - 3 * (q3 - q1) /\ a_upp_out a == q3 + 3 * (q3 - q1).

Definition extreme (a : analysis) (x : Q) : Prop := x < a_low_out a \/ a_upp_out a < x.
Definition inlier (a : analysis) (x : Q) : Prop := a_low_inn a <= x <= a_upp_inn a.
Definition mild (a : analysis) (x : Q) : Prop := ~ extreme a x /\ ~ inlier a x.

(** random.randint(0, n) returns a number from 0 to n. *)
Definition fair (randint : nat -> nat -> nat -> nat) : Prop := forall i j n, (randint i j n <= n)%nat.

(** [ms] are the means of [n] samples of [k] elements of the data. *)
Definition resampled (data : list Q) (n k : nat) (ms : list Q) : Prop :=
  exists samples, length samples = n
    /\ Forall2 (fun s m => length s = k /\ (forall x, In x s -> In x data) /\ is_mean s m) samples ms.

(** [x] is the value that has position [v] (rounded down, counting from 0) in the sorted list. *)
Definition position (v : Q) (ms : list Q) (x : Q) : Prop :=
  In x ms
  /\ (forall c : nat, inject_Z (Z.of_nat c) <= v -> at_least (S c) (fun m => m <= x) ms)
  /\ (forall c : nat, v < inject_Z (Z.of_nat c) + 1 -> at_least (length ms - c) (fun m => x <= m) ms).

(** ** Ranking *)

(** A result as each_result yields it: first the costs of the runs, then the other metrics, no
    name twice, at least one run. *)
Definition fresh (r : result) : Prop :=
  (exists costs rest, r_analysis r = ("cost"%string, costs) :: rest)
  /\ NoDup (map fst (r_analysis r))
  /\ (forall m d, In (m, d) (r_analysis r) -> d <> []).

Definition has_metric (r : result) (metric : string) (data : list Q) : Prop :=
  In (metric, data) (r_analysis r).

(** The mean cost of the runs is at most [limit]. *)
Definition affordable (limit : Q) (r : result) : Prop :=
  exists costs m, has_metric r "cost" costs /\ is_mean costs m /\ m <= limit.

(** The largest budget requested. *)
Definition last_budget (results : list result) (b : Q) : Prop :=
  exists before r, results = (before ++ [r])%list /\ r_budget r = b.

(** The last result within 500 of the largest budget. *)
Definition accepted (results : list result) (r : result) : Prop :=
  exists b before after, last_budget results b /\ results = (before ++ r :: after)%list
    /\ affordable (b + 500) r /\ Forall (fun r' => ~ affordable (b + 500) r') after.

(** Order-preserving selection of exactly the elements with a property. *)
Inductive selects {A} (P : A -> Prop) : list A -> list A -> Prop :=
| sel_nil : selects P [] []
| sel_keep x l l' : P x -> selects P l l' -> selects P (x :: l) (x :: l')
| sel_drop x l l' : ~ P x -> selects P l l' -> selects P (x :: l) l'.

(** The machine epsilon of double precision floats. *)
Definition machine_eps : Q := / inject_Z (2 ^ 52).

(** Two scores differ by at most the given fraction of the larger one (plus epsilon). *)
Definition near_tie (tolerance s t : Q) : Prop :=
  Qabs (s - t) <= tolerance * (s + machine_eps) \/ Qabs (s - t) <= tolerance * (t + machine_eps).

(** The ranked metrics: is a larger value better, and the tolerance. *)
Inductive ranked : string -> bool -> Q -> Prop :=
| rk_hv : ranked "hypervolume" true (5 # 1000)
| rk_pdi : ranked "pdi" true (5 # 1000)
| rk_igd : ranked "igd" false (5 # 100)
| rk_ahd : ranked "ahd" false (5 # 100)
| rk_spacing : ranked "spacing" false (5 # 100)
| rk_gd : ranked "gd" false (5 # 100).

(** [s] is a strictly better score than [t]. *)
Definition better (larger : bool) (s t : Q) : Prop := if larger then t < s else s < t.

(** [w] comes first among the best scores. *)
Definition wins (larger : bool) (scores : list (string * Q)) (w : string * Q) : Prop :=
  exists before after, scores = (before ++ w :: after)%list
    /\ (forall x, In x before -> better larger (snd w) (snd x))
    /\ (forall x, In x after -> ~ better larger (snd x) (snd w)).

Definition rival (tolerance : Q) (scores : list (string * Q)) (w : string * Q) (algo : string) : Prop :=
  exists s, In (algo, s) scores /\ algo <> fst w /\ near_tie tolerance s (snd w).

(** The points an algorithm gets from one problem: two for a lone winner, otherwise one for the
    winner and for every algorithm close to it. *)
Inductive points (larger : bool) (tolerance : Q) (scores : list (string * Q)) (algo : string)
  : nat -> Prop :=
| pt_nobody : scores = [] -> points larger tolerance scores algo 0
| pt_alone w : wins larger scores w -> (forall a, ~ rival tolerance scores w a) ->
    algo = fst w -> points larger tolerance scores algo 2
| pt_shared w a : wins larger scores w -> rival tolerance scores w a ->
    algo = fst w \/ rival tolerance scores w algo -> points larger tolerance scores algo 1
| pt_none w : wins larger scores w -> algo <> fst w -> ~ rival tolerance scores w algo ->
    points larger tolerance scores algo 0.

(** The scores of the algorithms on one problem: the mean of the metric over the runs of the
    accepted result, for the algorithms that have one with this metric. *)
Inductive scored (metric : string) : list (string * list result) -> list (string * Q) -> Prop :=
| sc_nil : scored metric [] []
| sc_in algo rs rest l r data s :
    accepted rs r -> has_metric r metric data -> is_mean data s ->
    scored metric rest l -> scored metric ((algo, rs) :: rest) ((algo, s) :: l)
| sc_out algo rs rest l :
    (forall r data, accepted rs r -> ~ has_metric r metric data) ->
    scored metric rest l -> scored metric ((algo, rs) :: rest) l.

(** The points of an algorithm over all problems. *)
Inductive ranking (metric : string) (larger : bool) (tolerance : Q) (algo : string)
  : list (string * list (string * list result)) -> nat -> Prop :=
| rn_nil : ranking metric larger tolerance algo [] 0
| rn_cons problem algos rest scores k n :
    scored metric algos scores -> points larger tolerance scores algo k ->
    ranking metric larger tolerance algo rest n ->
    ranking metric larger tolerance algo ((problem, algos) :: rest) (k + n).

(** The results directory: different problems, different algorithms of a problem, at least one
    budget for each, and metric values that are not negative. *)
Definition tidy (stored : list (string * list (string * list result))) : Prop :=
  NoDup (map fst stored)
  /\ forall problem algos, In (problem, algos) stored ->
       NoDup (map fst algos)
       /\ forall algo rs, In (algo, rs) algos ->
            rs <> [] /\ forall r, In r rs -> fresh r
              /\ forall m larger tol d x, ranked m larger tol -> has_metric r m d -> In x d -> 0 <= x.
