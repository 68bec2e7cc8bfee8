(** Properties of NSLS: C37, C38, C82, C83. *)
From Verif Require Import Spec Base DomModel NDSortModel VarModel VarProofs NsgaModel NsgaProofs MetSpec MetModel SmsSpec NslsSpec NslsModel NslsProofs.
From Coq Require Import QArith Relation_Operators.
Local Open Scope nat_scope.

(** C37 - the two candidates of a local search step lie in the box; without a trim function they
    are the individual with coordinate [k] moved by [d], unless that leaves the box. *)
Theorem C37_candidates_stay_in_the_box :
  forall (P : params) (x : vec) (k : nat) (d : Z),
    (forall k v, in_box_except k (p_dims P) v -> in_box_except k (p_dims P) (p_trim P v)) ->
    in_box (p_dims P) x -> k < length (p_dims P) ->
    exists w, candidate P x k d = Some w /\ in_box (p_dims P) w /\
      ((forall v, p_trim P v = v) -> moved (p_dims P) k d x w).
Proof.
  intros P x k d Ht Hx Hk. destruct (candidate_ok P Ht x k d Hx Hk) as (w & E & B).
  exists w. split; [exact E|]. split; [exact B|]. intros Hid. eapply candidate_moved; eauto.
Qed.
Print Assumptions C37_candidates_stay_in_the_box.

(** C37 - one local search step at position [i], coordinate [k]: [x], there now, is compared with
    the two candidates [p] and [m] made from it; [x] stays iff it dominates both; otherwise one of
    them takes its place, never one that [x] dominates, and one that dominates [x] if there is
    any.  All positions but [i] are untouched. *)
Theorem C37_replacement_is_not_dominated :
  forall (P : params) (D : ls_draws) (i k a b : nat) (copy : list (indiv * bool)) (c : nat)
         (ar : option (list (vec * vec))) (tr : list vec),
    (forall k v, in_box_except k (p_dims P) v -> in_box_except k (p_dims P) (p_trim P v)) ->
    (forall v, length (p_f P v) = p_m P) ->
    Forall (fun e => in_box (p_dims P) (iv (fst e)) /\ iobj (fst e) = Some (p_f P (iv (fst e)))) copy ->
    c = length tr -> (forall m k o, ar = Some m -> lookup k m = Some o -> o = p_f P k) ->
    i < length copy -> k < length (p_dims P) ->
    ls_sample D i k = (a, b) -> a < length copy -> b < length copy -> a <> b ->
    exists copy' c' ar' tr' x flag u v uk vk wp wm,
      search_one P D i k (copy, (c, ar, tr)) = Some (copy', (c', ar', tr')) /\
      nth_error copy i = Some (x, flag) /\ nth_error copy a = Some u /\ nth_error copy b = Some v /\
      nth_error (iv (fst u)) k = Some uk /\ nth_error (iv (fst v)) k = Some vk /\
      candidate P (iv x) k (ls_scaled D i k (uk - vk)) = Some wp /\
      candidate P (iv x) k (- ls_scaled D i k (uk - vk)) = Some wm /\
      ((copy' = copy /\ pareto_dom (p_f P (iv x)) (p_f P wp) /\ pareto_dom (p_f P (iv x)) (p_f P wm)) \/
       exists w, (w = wp \/ w = wm) /\ ~ pareto_dom (p_f P (iv x)) (p_f P w) /\
         (pareto_dom (p_f P wp) (p_f P (iv x)) \/ pareto_dom (p_f P wm) (p_f P (iv x)) ->
          pareto_dom (p_f P w) (p_f P (iv x))) /\
         length copy' = length copy /\
         nth_error copy' i = Some (mk_indiv w (Some (p_f P w)), true) /\
         forall j, j <> i -> nth_error copy' j = nth_error copy j) /\
      c' = length tr' /\ (ar = None -> tr' = tr ++ [wp; wm]).
Proof.
  intros P D i k a b copy c ar tr Ht Hf HF Hc Har Hi Hk ES Ha Hb Hab.
  assert (HS : fst (ls_sample D i k) = a /\ snd (ls_sample D i k) = b) by (rewrite ES; auto). destruct HS as (S1 & S2).
  destruct (search_one_ok P Ht Hf D i k copy (c, ar, tr)) as
    (copy' & ctx' & x & flag & u & v & uk & vk & p & m & E & L & F & (C & _) & N & Ex & Eu & Ev & Euk & Evk & Ep & Em & Fp & Fm & HR);
    [exact HF | split; assumption | exact Hi | exact Hk | congruence | congruence | congruence|].
  rewrite S1 in Eu. rewrite S2 in Ev. destruct ctx' as [[c' ar'] tr'].
  assert (Fx : fine P x).
  { rewrite Forall_forall in HF. apply (HF (x, flag)). eapply nth_error_In; eauto. }
  rewrite (fine_objs P x Fx), (fine_objs P p Fp), (fine_objs P m Fm) in HR.
  exists copy', c', ar', tr', x, flag, u, v, uk, vk, (iv p), (iv m).
  split; [exact E|]. do 7 (split; [assumption|]). split; [|split; [exact C|]].
  - destruct HR as [HR|(w & E' & Hw & R1 & R2)]; [now left|]. right. exists (iv w).
    assert (Fw : fine P w) by (destruct Hw; subst; assumption). rewrite (fine_objs P w Fw) in R1, R2.
    split; [destruct Hw; subst; auto|]. split; [exact R1|]. split; [exact R2|]. split; [exact L|]. split.
    + rewrite E', nth_error_set_nth, Nat.eqb_refl, Ex. destruct w as [wv wo], Fw as (_ & Fo). cbn in *. now rewrite Fo.
    + intros j Hj. rewrite E', nth_error_set_nth. destruct (i =? j) eqn:Eij; [apply Nat.eqb_eq in Eij; congruence | reflexivity].
  - intros Hn. cbn [fst snd] in N. now destruct (N Hn).
Qed.
Print Assumptions C37_replacement_is_not_dominated.

(** C37 - the whole local search: the individuals themselves are kept, and added to them are the
    individuals that now occupy the changed positions, all in the box, each obtained from the
    original at its position by a chain of replacements by an individual that the replaced one
    does not dominate. *)
Theorem C37_local_search :
  forall (P : params) (D : ls_draws) (inds : list indiv) (c : nat) (ar : option (list (vec * vec))) (tr : list vec),
    (forall k v, in_box_except k (p_dims P) v -> in_box_except k (p_dims P) (p_trim P v)) ->
    (forall v, length (p_f P v) = p_m P) ->
    (forall i k, i < length inds -> k < length (p_dims P) ->
       fst (ls_sample D i k) < length inds /\ snd (ls_sample D i k) < length inds /\
       fst (ls_sample D i k) <> snd (ls_sample D i k)) ->
    Forall (fun x => in_box (p_dims P) (iv x) /\ iobj x = Some (p_f P (iv x))) inds ->
    c = length tr -> (forall m k o, ar = Some m -> lookup k m = Some o -> o = p_f P k) ->
    exists copy c' ar' tr',
      local_search P D (inds, (c, ar, tr)) = Some (inds ++ map fst (filter snd copy), (c', ar', tr')) /\
      Forall2 (fun x e =>
          clos_refl_trans_1n _ (fun new old => ~ pareto_dom (objs old) (objs new)) (fst e) x /\
          (snd e = false -> fst e = x) /\
          in_box (p_dims P) (iv (fst e)) /\ iobj (fst e) = Some (p_f P (iv (fst e)))) inds copy /\
      c' = length tr' /\ (ar = None -> length tr' = length tr + 2 * length (p_dims P) * length inds).
Proof.
  intros P D inds c ar tr Ht Hf HD HF Hc Har.
  destruct (local_search_ok P Ht Hf D inds (c, ar, tr) HD HF (conj Hc Har)) as (copy & [[c' ar'] tr'] & E & HL & HFc & (C & _) & N).
  exists copy, c', ar', tr'. split; [exact E|]. split; [|split; [exact C|]].
  - apply Forall2_nth_error in HL. destruct HL as (L & HL). apply VarProofs.Forall2_of_nth; [exact L|].
    intros j x e Hx He. destruct (HL j x e Hx He) as (H1 & H2). split; [exact H1|]. split; [exact H2|].
    rewrite Forall_forall in HFc. apply HFc. eapply nth_error_In; eauto.
  - intros Hn. cbn [fst snd] in N. now destruct (N Hn).
Qed.
Print Assumptions C37_local_search.

(** Example parameters: one variable in [-10, 10], objectives |x| and |x - 4|. *)
Definition nsls_ex (f : vec -> vec) (m : nat) : params :=
  {| p_dims := [(-10, 10)%Z]; p_f := f; p_m := m; p_trim := fun v => v; p_crossover_rate := 0%Z; p_mutation_rate := 0%Z;
     p_raw := fun _ _ _ _ => 0%Z; p_raw_a := fun _ _ _ _ _ => 0%Z; p_raw_b := fun _ _ _ _ _ => 0%Z;
     p_half := 0%Z; p_epsilon := 0%Z; p_eps := 0%Q; p_iter := fun _ l => l |}.
Definition nsls_f2 (v : vec) : vec := match v with x :: _ => [Z.abs x; Z.abs (x - 4)] | [] => [0%Z; 0%Z] end.
Definition nsls_quarter : ls_draws :=
  {| ls_sample := fun i _ => (i, 1 - i); ls_scaled := fun _ _ d => (d / 4)%Z; ls_coin := fun _ _ => true |}.
(** 8 moves to 5, which dominates it (11 is outside the box); then -4 moves to -1. *)
Example C37_example :
  local_search (nsls_ex nsls_f2 2) nsls_quarter ([mk_indiv [8]%Z (Some [8; 4]%Z); mk_indiv [-4]%Z (Some [4; 8]%Z)], (2, None, [[8]%Z; [-4]%Z]))
  = Some ([mk_indiv [8]%Z (Some [8; 4]%Z); mk_indiv [-4]%Z (Some [4; 8]%Z); mk_indiv [5]%Z (Some [5; 1]%Z); mk_indiv [-1]%Z (Some [1; 5]%Z)],
          (6, None, [[8]%Z; [-4]%Z; [8]%Z; [5]%Z; [-7]%Z; [-1]%Z])).
Proof. vm_compute. reflexivity. Qed.

(** C38, partial: the selection ends with the population size, made of complete fronts and members
    of the next one, whenever there are more individuals than places. *)
Theorem C38_selection_partial :
  forall (P : params) (fuel : nat) (sample : nat -> list nat -> list nat) (size : nat) (pop : list indiv),
    (forall x l, Permutation (p_iter P x l) l) -> is_sample sample -> 1 <= p_m P ->
    (forall x, In x pop -> length (objs x) = p_m P) ->
    size < length pop -> length pop <= fuel ->
    exists e fronts n last kept, next_generation P fuel sample size pop = Done e /\
      length e = size /\ NoDup e /\ (forall i, In i e -> i < length pop) /\
      split_into_fronts objs pop fronts /\ nth_error fronts n = Some last /\
      e = concat (firstn n fronts) ++ kept /\ incl kept last.
Proof.
  intros P fuel sample size pop Hit HS Hm HD Hsz Hf.
  destruct (next_generation_ok P fuel sample size pop Hit HS Hm HD Hsz Hf) as (e & fr & n & l & k & H1 & H2 & H3 & H4 & H5 & H6 & H7 & H8 & _).
  exists e, fr, n, l, k. auto 10.
Qed.
Print Assumptions C38_selection_partial.

(** Two places for four individuals, the second of which is dominated. *)
Example C38_example :
  next_generation (nsls_ex nsls_f2 2) 4 (@firstn nat) 2
    [mk_indiv [1]%Z (Some [1; 3]%Z); mk_indiv [8]%Z (Some [8; 4]%Z); mk_indiv [2]%Z (Some [2; 2]%Z); mk_indiv [4]%Z (Some [4; 0]%Z)] = Done [0; 2].
Proof. vm_compute. reflexivity. Qed.

(** C38 - with no more individuals than places the selection never ends. *)
Theorem C38_no_end_when_everyone_fits :
  forall (P : params) (sample : nat -> list nat -> list nat) (size : nat) (pop : list indiv),
    (forall x l, Permutation (p_iter P x l) l) -> (forall x, In x pop -> length (objs x) = p_m P) ->
    length pop <= size -> forall fuel, next_generation P fuel sample size pop = OutOfFuel.
Proof. intros P sample size pop Hit HD Hsz. exact (next_generation_hangs P sample size pop (p_m P) Hit HD Hsz). Qed.
Print Assumptions C38_no_end_when_everyone_fits.

(** C38 - so a step ends iff the local search replaced somebody. *)
Theorem C38_step_ends_iff_somebody_was_replaced :
  forall (P : params) (n : nat) (D : ls_draws) (sample : nat -> list nat -> list nat) (s : nsls_state),
    (forall k v, in_box_except k (p_dims P) v -> in_box_except k (p_dims P) (p_trim P v)) ->
    (forall v, length (p_f P v) = p_m P) -> 1 <= p_m P -> (forall x l, Permutation (p_iter P x l) l) ->
    (forall i k, i < n -> k < length (p_dims P) ->
       fst (ls_sample D i k) < n /\ snd (ls_sample D i k) < n /\ fst (ls_sample D i k) <> snd (ls_sample D i k)) ->
    is_sample sample ->
    Forall (fun x => in_box (p_dims P) (iv x) /\ (iobj x = None \/ iobj x = Some (p_f P (iv x)))) (nl_individuals s) ->
    length (nl_individuals s) = n -> nl_size s = n ->
    fst (fst (nl_context s)) = length (snd (nl_context s)) ->
    (forall m k o, snd (fst (nl_context s)) = Some m -> lookup k m = Some o -> o = p_f P k) ->
    exists inds ctx,
      local_search P D (fold_left (evaluate P) (nl_individuals s) ([], nl_context s)) = Some (inds, ctx) /\
      n <= length inds <= 2 * n /\
      (length inds = n -> forall fuel, nsls_step P fuel D sample s = OutOfFuel) /\
      (n < length inds -> forall fuel, 2 * n <= fuel -> exists s', nsls_step P fuel D sample s = Done s').
Proof.
  intros P n D sample s Ht Hf Hm Hit HD HS HI HL HZ HC1 HC2.
  destruct (nsls_step_ok P Ht Hf Hm Hit n D sample s HD HS) as (inds & copy & ctx & E & H2 & Lc & K1 & K2).
  { split; [exact HI|]. split; [exact HL|]. split; [exact HZ|]. split; assumption. }
  assert (LI : length inds = n) by (apply Forall2_length' in H2; lia).
  pose proof (filter_length_le snd copy) as LF.
  exists (inds ++ map fst (filter snd copy)), ctx. split; [exact E|]. rewrite app_length, map_length, LI. split; [lia|]. split.
  - intros H0. apply K1. destruct (filter snd copy); [reflexivity | cbn in H0; lia].
  - intros H0 fuel Hfuel. destruct (K2 ltac:(intros E0; rewrite E0 in H0; cbn in H0; lia) fuel Hfuel) as (s' & Es & _). eauto.
Qed.
Print Assumptions C38_step_ends_iff_somebody_was_replaced.

Lemma firstn_is_sample : is_sample (@firstn nat).
Proof.
  intros k l ND HL. split; [rewrite firstn_length; lia|]. split.
  - rewrite <- (firstn_skipn k l) in ND. now apply NoDup_app_inv in ND.
  - intros x Hx. rewrite <- (firstn_skipn k l). apply in_or_app. now left.
Qed.

(** C38, refuted: two individuals at the two minima 0 and 4 of one objective, candidates one unit
    away: nobody is replaced and the step never ends. *)
Definition nsls_f1 (v : vec) : vec := match v with x :: _ => [Z.min (Z.abs x) (Z.abs (x - 4))] | [] => [0%Z] end.
Theorem C38_terminates_refuted :
  exists (P : params) (population : list vec) (D : ls_draws) (sample : nat -> list nat -> list nat),
    2 <= length population /\ valid_box (p_dims P) /\ Forall (in_box (p_dims P)) population /\
    (forall v, p_trim P v = v) /\ (forall v, length (p_f P v) = p_m P) /\ 1 <= p_m P /\
    (forall i k, i < length population -> k < length (p_dims P) ->
       fst (ls_sample D i k) < length population /\ snd (ls_sample D i k) < length population /\
       fst (ls_sample D i k) <> snd (ls_sample D i k)) /\
    is_sample sample /\ (forall x l, Permutation (p_iter P x l) l) /\
    forall fuel, nsls_step P fuel D sample (nsls_init P None population) = OutOfFuel.
Proof.
  exists (nsls_ex nsls_f1 1), [[0]%Z; [4]%Z], nsls_quarter, (@firstn nat).
  split; [cbn; lia|]. split; [repeat constructor; cbn; lia|]. split; [repeat constructor; cbn; lia|].
  split; [reflexivity|]. split; [intros [|x v]; reflexivity|]. split; [cbn; lia|].
  split; [intros [|[|i]] k Hi Hk; cbn in *; lia|]. split; [exact firstn_is_sample|]. split; [reflexivity|].
  intros fuel. unfold nsls_step.
  replace (local_search _ _ _) with (Some ([mk_indiv [0]%Z (Some [0]%Z); mk_indiv [4]%Z (Some [0]%Z)],
      (6, @None (list (vec * vec)), [[0]; [4]; [-1]; [1]; [5]; [3]]%Z))) by (vm_compute; reflexivity).
  rewrite (next_generation_hangs _ _ _ _ 1); [reflexivity | reflexivity | | cbn; lia].
  intros x [<-|[<-|[]]]; reflexivity.
Qed.
Print Assumptions C38_terminates_refuted.

(** C82, partial: how the last front is cut.  [records] are its members that are smaller, or
    greater, than everything before them in some objective.  If there are at least as many of them
    as places, the places go to a random choice of them; otherwise they are all kept - in
    particular the best and the worst of every objective - and the other places are filled
    farthest first. *)
Theorem C82_last_front_partial :
  forall (P : params) (fuel : nat) (sample : nat -> list nat -> list nat) (size dim : nat) (pop : list indiv),
    (forall x l, Permutation (p_iter P x l) l) -> is_sample sample -> 1 <= p_m P ->
    (forall x, In x pop -> length (objs x) = p_m P /\ length (iv x) = dim) ->
    size < length pop -> length pop <= fuel ->
    let value j i := nth j (objs (nth i pop (mk_indiv [] None))) 0%Z in
    let vec_at i := iv (nth i pop (mk_indiv [] None)) in
    exists e fronts n last kept records, next_generation P fuel sample size pop = Done e /\
      split_into_fronts objs pop fronts /\ nth_error fronts n = Some last /\
      e = concat (firstn n fronts) ++ kept /\ length e = size /\
      NoDup records /\ (forall i, In i records <-> exists j, j < p_m P /\ record_in (value j) last i) /\
      (length kept <= length records -> incl kept records) /\
      (length records <= length kept ->
         (forall j, j < p_m P ->
            (exists i, In i kept /\ forall x, In x last -> (value j i <= value j x)%Z) /\
            (exists i, In i kept /\ forall x, In x last -> (value j x <= value j i)%Z)) /\
         exists chosen, kept = records ++ chosen /\ farthest_first vec_at last records chosen).
Proof.
  intros P fuel sample size dim pop Hit HS Hm HD Hsz Hf value vec_at.
  destruct (next_generation_ok P fuel sample size pop Hit HS Hm (fun x Hx => proj1 (HD x Hx)) Hsz Hf)
    as (e & fr & n & l & k & H1 & H2 & H3 & H4 & H5 & H6 & H7 & H8 & H9 & H10 & H11 & H12 & H13).
  destruct (extremes_spec pop (p_m P) l H11) as (E1 & E2 & E3).
  exists e, fr, n, l, k, (extremes pop (p_m P) l).
  split; [exact H1|]. split; [exact H5|]. split; [exact H6|]. split; [exact H7|]. split; [exact H2|]. split; [exact E1|].
  split; [intros i; apply extremes_records|]. split; [exact H12|]. intros HL. destruct (H13 HL) as (ch & Ek & Hc).
  split.
  - intros j Hj. destruct (E3 j Hj) as ((a & A1 & A2) & (b & B1 & B2)). split; [exists a | exists b];
      (split; [rewrite Ek; apply in_or_app; now left | assumption]).
  - exists ch. split; [exact Ek|]. intros before c after y dy dc Ec Hy Hn N1 N2.
    assert (LV : forall x, In x l -> length (vec_at x) = dim).
    { intros x Hx. apply H10 in Hx. apply in_seq in Hx. unfold vec_at. apply HD, nth_In. lia. }
    assert (IB : forall x, In x (extremes pop (p_m P) l ++ before) -> In x l).
    { intros x Hx. apply in_app_or in Hx. destruct Hx as [Hx|Hx]; [now apply E2|]. apply H8. rewrite Ek, Ec.
      apply in_or_app. right. apply in_or_app. now left. }
    eapply (Hc before c after y); [exact Ec | exact Hy | exact Hn | |].
    + apply (min_gap_nearest pop dim); [|exact N1]. intros x [<-|Hx]; apply LV; [exact Hy | now apply IB].
    + apply (min_gap_nearest pop dim); [|exact N2]. intros x [<-|Hx]; apply LV; [|now apply IB].
      apply H8. rewrite Ek, Ec. apply in_or_app. right. apply in_or_app. right. now left.
Qed.
Print Assumptions C82_last_front_partial.

(** Six mutually non-dominated individuals at 0, 10, 9, 1, 5, 2 and four places: positions 0 and 1
    are the records, then 4 (at 5) and 5 (at 2) are chosen. *)
Definition nsls_line (xs : list Z) : list indiv := map (fun x => mk_indiv [x] (Some [x; (10 - x)%Z])) xs.
Example C82_example :
  next_generation (nsls_ex nsls_f2 2) 6 (@firstn nat) 4 (nsls_line [0; 10; 9; 1; 5; 2]%Z) = Done [0; 1; 4; 5].
Proof. vm_compute. reflexivity. Qed.

(** C82, refuted: four places, two objectives, and a front of five; every one of them is a running
    minimum, so four are drawn at random and the best of the first objective may be lost. *)
Theorem C82_keeps_extremes_refuted :
  exists (P : params) (sample : nat -> list nat -> list nat) (size : nat) (pop : list indiv) (e : list nat) (i j : nat),
    is_sample sample /\ (forall x l, Permutation (p_iter P x l) l) /\
    (forall x, In x pop -> length (objs x) = p_m P) /\ split_into_fronts objs pop [seq 0 (length pop)] /\
    2 * p_m P <= size /\ next_generation P (length pop) sample size pop = Done e /\
    j < p_m P /\ i < length pop /\ ~ In i e /\
    forall x, x < length pop -> x <> i ->
      (nth j (objs (nth i pop (mk_indiv [] None))) 0 < nth j (objs (nth x pop (mk_indiv [] None))) 0)%Z.
Proof.
  exists (nsls_ex nsls_f2 2), (@firstn nat), 4, (nsls_line [5; 4; 3; 2; 1]%Z), [0; 1; 2; 3], 4, 0.
  split; [exact firstn_is_sample|]. split; [reflexivity|].
  assert (HD : forall x, In x (nsls_line [5; 4; 3; 2; 1]%Z) -> length (objs x) = 2) by (intros x Hx; cbn in Hx; intuition (subst; reflexivity)).
  split; [exact HD|]. split.
  { destruct (nsls_fronts (fun _ l => l) (nsls_line [5; 4; 3; 2; 1]%Z) 2) as (fronts & E & HF); [reflexivity | exact HD|].
    vm_compute in E. injection E as <-. exact HF. }
  split; [cbn; lia|]. split; [vm_compute; reflexivity|]. split; [cbn; lia|]. split; [cbn; lia|].
  split; [cbn; intuition discriminate|].
  intros x Hx Hne. cbn in Hx. do 5 (destruct x as [|x]; [cbn; lia|]). lia.
Qed.
Print Assumptions C82_keeps_extremes_refuted.

(** C83 - a run of NSLS from a population of at least two vectors in the box never raises; if all
    its steps end, there are as many individuals as at the start, all in the box, and the cost is
    the number of evaluated vectors - without a fitness archive one per initial individual and two
    per individual, coordinate and step. *)
Theorem C83_nsls_run :
  forall (P : params) (fuel : nat) (ar : option (list (vec * vec))) (population : list vec)
         (Ds : list (ls_draws * (nat -> list nat -> list nat))),
    (forall k v, in_box_except k (p_dims P) v -> in_box_except k (p_dims P) (p_trim P v)) ->
    (forall v, length (p_f P v) = p_m P) -> 1 <= p_m P -> (forall x l, Permutation (p_iter P x l) l) ->
    (forall m k o, ar = Some m -> lookup k m = Some o -> o = p_f P k) ->
    Forall (in_box (p_dims P)) population ->
    Forall (fun d => (forall i k, i < length population -> k < length (p_dims P) ->
         fst (ls_sample (fst d) i k) < length population /\ snd (ls_sample (fst d) i k) < length population /\
         fst (ls_sample (fst d) i k) <> snd (ls_sample (fst d) i k)) /\ is_sample (snd d)) Ds ->
    2 * length population <= fuel ->
    nsls_steps P fuel Ds (nsls_init P ar population) = OutOfFuel \/
    exists s, nsls_steps P fuel Ds (nsls_init P ar population) = Done s /\
      length (nsls_finalized s) = length population /\ Forall (in_box (p_dims P)) (nsls_finalized s) /\
      fst (fst (nl_context s)) = length (snd (nl_context s)) /\
      (ar = None -> fst (fst (nl_context s)) =
         (match Ds with [] => 0 | _ :: _ => length population end) +
         length Ds * (2 * length (p_dims P) * length population)).
Proof.
  intros P fuel ar population Ds Ht Hf Hm Hit Har Hp HD Hfuel.
  destruct (nsls_steps_ok P Ht Hf Hm Hit (length population) fuel Ds (nsls_init P ar population) Hfuel HD
              (nsls_init_ok P Ht ar population Har Hp)) as [H|(s & E & (S1 & S2 & S3 & S4 & _) & N)]; [now left|].
  right. exists s. split; [exact E|]. unfold nsls_finalized. rewrite map_length. split; [exact S2|]. split; [|split; [exact S4|]].
  - rewrite Forall_map. eapply Forall_impl; [|exact S1]. cbn. tauto.
  - intros ->. rewrite S4. cbn [nsls_init nl_context fst snd nl_individuals] in N. destruct (N eq_refl) as (_ & ->).
    replace (length (unevaluated _)) with (length population); [destruct Ds; cbn [length]; lia|].
    clear. unfold unevaluated. induction population as [|v l IH]; [reflexivity|]. cbn. f_equal. exact IH.
Qed.
Print Assumptions C83_nsls_run.

Example C83_example :
  exists s, nsls_steps (nsls_ex nsls_f2 2) 4 [(nsls_quarter, @firstn nat); (nsls_quarter, @firstn nat)]
              (nsls_init (nsls_ex nsls_f2 2) None [[8]%Z; [-4]%Z]) = Done s /\
    nsls_finalized s = [[4]%Z; [1]%Z] /\ fst (fst (nl_context s)) = 10.
Proof. eexists. split; [vm_compute; reflexivity|]. split; reflexivity. Qed.
