(** Specification vocabulary for the statistics report. *)
From Coq Require Import Qabs.
From Verif Require Import StatModel StatSpec StatBandSpec StrepModel.
Local Open Scope nat_scope.

(** More than a twentieth of the values lie farther than three standard deviations from the mean. *)
Definition spread_out (data : list Q) : Prop := exists k, exactly k (far data) data /\ length data < 20 * k.

(** The mean of the values between the inner fences differs from the mean of all by more than a tenth of
    the latter. *)
Definition moved (a : analysis) (data : list Q) : Prop :=
  exists inliers m mean, selects (inlier a) data inliers /\ is_mean inliers m /\ is_mean data mean /\
    (mean == 0 \/ Qabs mean < 10 * Qabs (m - mean))%Q.

(** A result that can be reported: every population has a length, there are metrics, and there are runs. *)
Definition readable (e : entry) : Prop :=
  Forall (fun n => n <> None) (e_populations e) /\ e_analysis e <> [] /\
  (forall m data, In (m, data) (e_analysis e) -> data <> []).
Definition all_readable (stored : archive) : Prop :=
  forall p algos a es e, In (p, algos) stored -> In (a, es) algos -> In e es -> readable e.

Section Text.
  Variable boot_size : nat.
  Variable draws : subject -> nat -> nat -> nat -> nat.

  (** What is printed about one metric of one result. *)
  Inductive paragraph (about : subject) (data : list Q) : list item -> Prop :=
  | pg_quiet a : yield_analysis (draws about) data boot_size = Some a -> ~ spread_out data ->
      paragraph about data [Row about (length data) a]
  | pg_untrusted a r : yield_analysis (draws about) data boot_size = Some a -> spread_out data -> moved a data ->
      suspicious a data = Some r -> paragraph about data [Row about (length data) a; Details about r; Untrusted about]
  | pg_fine a r : yield_analysis (draws about) data boot_size = Some a -> spread_out data -> ~ moved a data ->
      suspicious a data = Some r -> paragraph about data [Row about (length data) a; Details about r; Probably_fine about].

  (** The texts one after the other, separated. *)
  Definition join (sep : item) (texts : list (list item)) : list item :=
    match texts with [] => [] | t :: rest => (t ++ flat_map (fun t => sep :: t) rest)%list end.

  Definition result_text (p a : string) (e : entry) (t : list item) : Prop :=
    exists ps, Forall2 (fun it q => paragraph (p, a, e_budget e, fst it) (snd it) q) (e_analysis e) ps /\ t = concat ps.
  Definition algorithm_text (p a : string) (es : list entry) (t : list item) : Prop :=
    exists ts, Forall2 (result_text p a) es ts /\ t = Heading :: join Dashes ts.
  Definition problem_text (p : string) (algos : list (string * list entry)) (t : list item) : Prop :=
    exists ts, Forall2 (fun x t => algorithm_text p (fst x) (snd x) t) algos ts /\ t = concat ts.
  Definition archive_text (stored : archive) (t : list item) : Prop :=
    exists ts, Forall2 (fun x t => problem_text (fst x) (snd x) t) stored ts /\ t = concat ts.
End Text.

(** The results called untrusted in the text, in their order. *)
Definition marked (t : list item) : list subject :=
  flat_map (fun i => match i with Untrusted s => [s] | _ => [] end) t.

(** The subjects of the lines of figures, in the order of the archive. *)
Definition row_subjects (t : list item) : list subject :=
  flat_map (fun i => match i with Row s _ _ => [s] | _ => [] end) t.
Definition stored_subjects (stored : archive) : list subject :=
  flat_map (fun x => flat_map (fun y => flat_map (fun e => map (fun it => (fst x, fst y, e_budget e, fst it)) (e_analysis e)) (snd y)) (snd x)) stored.
