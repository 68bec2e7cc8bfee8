(** C157: the fitness SPEA2 ranks by is the published one. *)
From Verif Require Import Spec Base MetSpec SpeaSpec SpeaFitSpec DomModel DomProofs SortModel SortProofs
     MetModel MetProofs SpeaModel SpeaProofs SpeaFitProofs.
From Coq Require Import Reals Lra Sorted.
Local Open Scope nat_scope.

(** For every list of at least two individuals with the same number of objectives, each gets the
    sum of the strengths of its dominators plus 1 / (sigma_k + 2). *)
Theorem C157_fitness :
  forall (union : list member) (d : nat), 2 <= length union -> all_dim d m_objectives union ->
    exists fits, calculate_fitnesses union = Some fits /\ length fits = length union /\
      forall i F, nth_error fits i = Some F -> spea2_fitness m_objectives union i F.
Proof.
  intros union d H2 D. destruct (fitnesses_some union H2) as (fits & E & L & HF).
  exists fits. split; [exact E|]. split; [exact L|]. intros i F HFi.
  assert (Hi : i < length union) by (rewrite <- L; apply nth_error_Some; congruence).
  destruct (HF i Hi) as (r & Er & En). rewrite (nth_error_nth _ _ _ HFi) in En.
  destruct (density_ok union d D i r H2 Hi Er) as (k & s & K1 & K2 & N & Ers).
  exists (raw_fitness union i), k, s. split; [now apply raw_ok with d|].
  split; [exact K1|]. split; [exact K2|]. split; [exact N|]. now rewrite En, Ers.
Qed.
Print Assumptions C157_fitness.

(** The fitness is what the archive is chosen by (see C31): the archive holds the best ones by this
    value whenever the non-dominated individuals do not fill it. *)
Theorem C157_selection :
  forall (union : list member) (d size : nat),
    2 <= length union -> size <= length union -> all_dim d m_objectives union ->
    exists e fit, select_archive union size = Some (e, fit) /\
      (forall i, i < length union -> spea2_fitness m_objectives union i (fit i)) /\
      forall L, nondominated_positions m_objectives union L -> length L <= size ->
        forall i j, In i e -> j < length union -> ~ In j e -> (fit i <= fit j)%R.
Proof.
  intros union d size H2 Hs D.
  destruct (select_archive_spec union d size H2 Hs D) as (e & fit & fits & E1 & E2 & Hf & Hl & ND & In1 & HL).
  exists e, fit. split; [exact E1|]. split.
  - intros i Hi. destruct (C157_fitness union d H2 D) as (fits' & E' & _ & HF).
    rewrite E2 in E'. injection E' as <-. apply HF. now apply Hf.
  - intros L HN Hle. destruct (HL L HN) as [A _]. destruct (A Hle) as [_ B]. exact B.
Qed.
Print Assumptions C157_selection.

(** Four individuals: the last is dominated by the third, whose strength is one; the second nearest
    neighbour (k = 2) of the first is the fourth, at squared distance 170. *)
Example C157_example :
  let union := [mk_member [1]%Z [0; 10]%Z; mk_member [2]%Z [1; 9]%Z; mk_member [3]%Z [10; 0]%Z;
                mk_member [4]%Z [11; 3]%Z] in
  all_dim 2 m_objectives union /\
  map (raw_fitness union) (seq 0 4) = [0; 0; 0; 1] /\
  density union 0 = Some (1 / (sqrt (IZR 170) + 2))%R.
Proof.
  split; [|split].
  - intros x Hx. cbn in Hx. destruct Hx as [<-|[<-|[<-|[<-|[]]]]]; reflexivity.
  - vm_compute. reflexivity.
  - unfold density. match goal with |- match ?e with _ => _ end = _ => let v := eval vm_compute in e in
      replace e with v by (vm_compute; reflexivity) end. reflexivity.
Qed.
