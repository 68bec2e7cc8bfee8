(** C154: what the statistics report prints. *)
From Coq Require Import Qabs Lqa Reals.
From Verif Require Import StatModel StatSpec StatBandSpec StatProofs StatBoot StatRank StatProps StrepModel StrepSpec StrepProofs.
From Coq Require Import List.
Local Open Scope nat_scope.

(** For every archive whose populations have a length: the report is, for every problem and every algorithm, a
    heading and then the paragraphs of its results, with dashes between results; the results called
    untrusted in it are listed once more at the end, in the same order, and nothing else follows. *)
Theorem C154_report : forall boot_size draws stored,
  1 <= boot_size -> (forall about, fair (draws about)) -> all_readable stored ->
  exists printed, archive_text boot_size draws stored printed /\
    statistics boot_size draws stored = ((printed ++ map Listed (marked printed))%list, Finished).
Proof. intros boot_size draws stored B F R. apply report_ok; assumption. Qed.
Print Assumptions C154_report.

Lemma row_subjects_app t t' : row_subjects (t ++ t') = (row_subjects t ++ row_subjects t')%list.
Proof. apply flat_map_app. Qed.
Lemma row_subjects_concat {A} (R : A -> list item -> Prop) (f : A -> list subject) l ts :
  (forall x t, R x t -> row_subjects t = f x) -> Forall2 R l ts -> row_subjects (concat ts) = flat_map f l.
Proof.
  intros H. induction 1 as [|x t l ts Hx F IH]; [reflexivity|]. cbn [concat flat_map]. rewrite row_subjects_app, IH, (H _ _ Hx). reflexivity.
Qed.
Lemma row_subjects_join ts : row_subjects (join Dashes ts) = row_subjects (concat ts).
Proof.
  assert (G : forall ts, row_subjects (flat_map (fun t => Dashes :: t) ts) = row_subjects (concat ts)).
  { clear. induction ts as [|t ts IH]; [reflexivity|]. cbn [flat_map concat]. change ((Dashes :: t) ++ ?x)%list with (Dashes :: (t ++ x))%list.
    change (row_subjects (Dashes :: ?x)) with (row_subjects x). rewrite !row_subjects_app, IH. reflexivity. }
  destruct ts as [|t ts]; [reflexivity|]. cbn [join concat]. rewrite !row_subjects_app, G. reflexivity.
Qed.

(** Every metric of every stored result gets exactly one line of figures, in the order of the archive. *)
Theorem C154_every_result_once : forall boot_size draws stored printed,
  archive_text boot_size draws stored printed -> row_subjects printed = stored_subjects stored.
Proof.
  intros boot_size draws stored printed (ts & F & ->).
  apply (row_subjects_concat _ _ _ _) with (2 := F). clear. intros [p algos] t (ts & F & ->). cbn [fst snd] in *.
  apply (row_subjects_concat _ _ _ _) with (2 := F). clear. intros [a es] t (ts & F & ->). cbn [fst snd] in *.
  change (row_subjects (Heading :: ?x)) with (row_subjects x). rewrite row_subjects_join.
  apply (row_subjects_concat _ _ _ _) with (2 := F). clear. intros e t (ps & F & ->).
  transitivity (flat_map (fun it => [(p, a, e_budget e, fst it)]) (e_analysis e)).
  - apply (row_subjects_concat _ _ _ _) with (2 := F). intros it q P. destruct P; reflexivity.
  - clear. induction (e_analysis e) as [|it l IH]; [reflexivity|]. cbn [flat_map map]. rewrite IH. reflexivity.
Qed.
Print Assumptions C154_every_result_once.

(** The last list names exactly the metrics of stored results whose values are spread out and whose mean without the
    outliers moved; no result is cleared and listed. *)
Theorem C154_listed_exactly : forall boot_size draws stored printed about,
  archive_text boot_size draws stored printed ->
  (In about (marked printed) <->
   exists p algos a es e m data an, In (p, algos) stored /\ In (a, es) algos /\ In e es /\ In (m, data) (e_analysis e) /\
     about = (p, a, e_budget e, m) /\ yield_analysis (draws about) data boot_size = Some an /\
     spread_out data /\ moved an data).
Proof.
  assert (G : forall (A : Type) (R : A -> list item -> Prop) l ts about, Forall2 R l ts ->
    (In about (marked (concat ts)) <-> exists x t, In x l /\ R x t /\ In t ts /\ In about (marked t))).
  { intros A R l ts about. induction 1 as [|x t l ts Hx F IH]; cbn [concat].
    - split; [intros [] | intros (x & t & [] & _)].
    - rewrite marked_app, in_app_iff, IH. split.
      + intros [H|(y & u & H1 & H2 & H3 & H4)]; [exists x, t; cbn; auto | exists y, u; cbn; auto].
      + intros (y & u & H1 & H2 & [<-|H3] & H4); [left; exact H4|]. right.
        clear - F H3 H4. induction F as [|z v l ts Hz F IH]; [destruct H3|]. destruct H3 as [<-|H3].
        * exists z, v. cbn. auto.
        * destruct (IH H3) as (y1 & u1 & X1 & X2 & X3 & X4). exists y1, u1. cbn. auto. }
  assert (H : forall (A : Type) (R : A -> list item -> Prop) (P : A -> Prop) l ts about,
    (forall x t, R x t -> (In about (marked t) <-> P x)) -> Forall2 R l ts ->
    (In about (marked (concat ts)) <-> exists x, In x l /\ P x)).
  { intros A R P l ts about E F. rewrite (G A R l ts about F). split.
    - intros (x & t & H1 & H2 & _ & H4). exists x. split; [exact H1|]. apply (E x t H2), H4.
    - intros (x & H1 & H2). clear G. induction F as [|z v l ts Hz F IH]; [destruct H1|]. destruct H1 as [<-|H1].
      + exists z, v. cbn. split; [auto|]. split; [exact Hz|]. split; [auto|]. apply (E z v Hz), H2.
      + destruct (IH H1) as (y & u & X1 & X2 & X3 & X4). exists y, u. cbn. auto. }
  assert (J : forall ts, marked (join Dashes ts) = marked (concat ts)).
  { assert (J : forall ts, marked (flat_map (fun t => Dashes :: t) ts) = marked (concat ts)).
    { clear. induction ts as [|t ts IH]; [reflexivity|]. cbn [flat_map concat]. change ((Dashes :: t) ++ ?x)%list with (Dashes :: (t ++ x))%list.
      change (marked (Dashes :: ?x)) with (marked x). rewrite !marked_app, IH. reflexivity. }
    intros [|t ts]; [reflexivity|]. cbn [join concat]. rewrite !marked_app, J. reflexivity. }
  intros boot_size draws stored printed about (ts & F & ->).
  rewrite (H _ _ (fun x => exists y, In y (snd x) /\ exists e, In e (snd y) /\ exists it, In it (e_analysis e) /\
    about = (fst x, fst y, e_budget e, fst it) /\
    exists an, yield_analysis (draws about) (snd it) boot_size = Some an /\ spread_out (snd it) /\ moved an (snd it)) _ _ about) with (2 := F).
  - split.
    + intros ([p algos] & H1 & [a es] & H2 & e & H3 & [m data] & H4 & H5 & an & H6 & H7 & H8). exists p, algos, a, es, e, m, data, an. auto 10.
    + intros (p & algos & a & es & e & m & data & an & H1 & H2 & H3 & H4 & H5 & H6 & H7 & H8).
      exists (p, algos). split; [exact H1|]. exists (a, es). split; [exact H2|]. exists e. split; [exact H3|]. exists (m, data).
      split; [exact H4|]. split; [exact H5|]. exists an. auto.
  - clear - H J. intros x t (ts & F & ->). apply (H _ _ _ _ _ about) with (2 := F). clear - H J. intros y t (ts & F & ->).
    change (marked (Heading :: ?x)) with (marked x). rewrite J. apply (H _ _ _ _ _ about) with (2 := F).
    clear - H. intros e t (ps & F & ->). apply (H _ _ _ _ _ about) with (2 := F). clear. intros it q P. inversion P as [an E S Eq|an r E S M Su Eq|an r E S M Su Eq]; cbn [marked flat_map app].
    + split; [intros [] | intros (_ & an' & _ & C & _); contradiction].
    + split; [intros [<-|[]]; split; [reflexivity | exists an; auto] | intros (-> & _); left; reflexivity].
    + split; [intros [] | intros (Ea & an' & E' & _ & C)]. rewrite <- Ea in E. rewrite E in E'. injection E' as <-. contradiction.
Qed.
Print Assumptions C154_listed_exactly.

(** The first result with a population that has no length ends the report with an exception: what was printed for the
    results before it stays, and the list of untrusted results is not printed. *)
Theorem C154_aborted : forall boot_size draws before p algos a es e es' algos' after,
  1 <= boot_size -> (forall about, fair (draws about)) ->
  all_readable (before ++ [(p, algos ++ [(a, es)])]) -> In None (e_populations e) ->
  exists printed, archive_text boot_size draws (before ++ [(p, algos ++ [(a, es)])]) printed /\
    statistics boot_size draws (before ++ (p, algos ++ (a, es ++ e :: es') :: algos') :: after) = (printed, Raised).
Proof.
  intros boot_size draws before p algos a es e es' algos' after B Fd R N.
  apply report_raised; try assumption.
  - intros q al a' es0 e0 H0 H1 H2. apply (R q al a' es0 e0); [apply in_or_app; left; exact H0 | exact H1 | exact H2].
  - intros a' es0 e0 H1 H2. apply (R p (algos ++ [(a, es)])%list a' es0 e0); [apply in_or_app; right; left; reflexivity | apply in_or_app; left; exact H1 | exact H2].
  - intros e0 H2. apply (R p (algos ++ [(a, es)])%list a es e0); [apply in_or_app; right; left; reflexivity | apply in_or_app; right; left; reflexivity | exact H2].
Qed.
Print Assumptions C154_aborted.

(** An archive that meets the hypotheses, with one result that is called untrusted: thirteen runs, the
    values of sample13; and the same archive with a population without a length after it. *)
Definition good_entry : entry := {| e_budget := 500%Z; e_populations := repeat (Some 20) 13; e_analysis := [("gd"%string, sample13); ("cost"%string, repeat 1%Q 13)] |}.
Definition bad_entry : entry := {| e_budget := 1000%Z; e_populations := [None]; e_analysis := [("gd"%string, [1%Q])] |}.

Example C154_example :
  all_readable [("ZDT1"%string, [("NSGAII"%string, [good_entry])])] /\
  (exists t, statistics 10 (fun _ => always0) [("ZDT1"%string, [("NSGAII"%string, [good_entry])])]
     = ((t ++ [Listed ("ZDT1", "NSGAII", 500%Z, "gd")%string])%list, Finished)) /\
  snd (statistics 10 (fun _ => always0) [("ZDT1"%string, [("NSGAII"%string, [good_entry; bad_entry])])]) = Raised /\
  (forall s, ~ In (Listed s) (fst (statistics 10 (fun _ => always0) [("ZDT1"%string, [("NSGAII"%string, [good_entry; bad_entry])])]))).
Proof.
  split; [|split; [|split]].
  - intros p algos a es e [[= <- <-]|[]] [[= <- <-]|[]] [<-|[]]. split; [|split].
    + apply Forall_forall. intros n Hn. apply repeat_spec in Hn. congruence.
    + discriminate.
    + intros m data [[= <- <-]|[[= <- <-]|[]]]; discriminate.
  - pose (t := fst (statistics 10 (fun _ => always0) [("ZDT1"%string, [("NSGAII"%string, [good_entry])])])).
    exists (removelast t). vm_compute. reflexivity.
  - vm_compute. reflexivity.
  - intros s. vm_compute. intros H. repeat (destruct H as [H|H]; [discriminate|]). destruct H.
Qed.
