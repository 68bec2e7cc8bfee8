(** Properties of NSGA-III: C39, C40, C41, C84. *)
From Verif Require Import Spec Base NDSortModel VarModel NsgaModel NsgaProofs MetModel NslsSpec NslsModel NslsProofs NslsProps Nsga3Spec Nsga3Model Nsga3Proofs.
From Coq Require Import QArith Reals Lra.
Local Open Scope nat_scope.

Lemma reaches_ok P theta ar population Ds s : n3_setting P -> 2 <= length population -> n3_reaches P theta ar population Ds s ->
  n3_ok P (length population) s /\ length (n3_seen s) = length population + length Ds * (2 * (length population / 2)) /\
  exists more, n3_seen s = map (p_trim P) population ++ more.
Proof.
  intros (H1 & H2 & H3 & H4 & H5 & H6 & H7) Hn (rands & fuel & s0 & R1 & R2 & R3 & R4 & R5 & E0 & Es).
  destruct (n3_init_ok P H2 H3 H4 H5 rands ar population R1 R2 R3) as (s0' & E0' & Ok & Sn).
  rewrite E0 in E0'. injection E0' as <-.
  destruct (n3_steps_ok P H1 H2 H3 H4 H5 H6 H7 theta (length population) fuel Hn R5 Ds s0 R4 Ok) as (s' & Es' & Ok' & L & more & Em).
  rewrite Es in Es'. injection Es' as <-. rewrite Sn, map_length in L. split; [exact Ok'|]. split; [exact L|]. exists more. congruence.
Qed.

(** C39 - after any number of steps coordinate j of the ideal point is the least value of objective
    j among all individuals made so far: the initial ones and the offspring of all steps.  All
    evaluated vectors are among them, and without a fitness archive they are all evaluated. *)
Theorem C39_ideal_point_is_least_so_far :
  forall (P : params) (theta : R) (ar : option (list (vec * vec))) (population : list vec) (Ds : list n3_draws) (s : n3_state),
    n3_setting P -> 2 <= length population -> n3_reaches P theta ar population Ds s ->
    (forall j, j < p_m P -> exists x, nth_error (n3_ideal s) j = Some (Some x) /\ least_value (p_f P) (n3_seen s) j x) /\
    length (n3_ideal s) = p_m P /\
    length (n3_seen s) = length population + length Ds * (2 * (length population / 2)) /\
    (exists offspring, n3_seen s = map (p_trim P) population ++ offspring) /\
    incl (map iv (n3_individuals s)) (n3_seen s) /\
    incl (snd (n3_context s)) (n3_seen s) /\
    (snd (fst (n3_context s)) = None -> incl (n3_seen s) (snd (n3_context s))).
Proof.
  intros P theta ar population Ds s HP Hn HR.
  destruct (reaches_ok P theta ar population Ds s HP Hn HR) as ((O1 & O2 & O3 & O4 & O5 & (O6 & O7) & O8 & O9 & O10 & O11 & _) & L & HM).
  split; [|split; [exact O6|split; [exact L|split; [exact HM|split; [|split; [exact O10 | exact O11]]]]]].
  - intros j Hj. destruct (nth_error (n3_ideal s) j) as [p|] eqn:Ep; [|apply nth_error_None in Ep; lia].
    specialize (O7 j p Ep). destruct p as [x|].
    + exists x. split; [reflexivity|]. destruct O7 as ((o & Ho & Ex) & Hall). apply in_map_iff in Ho. destruct Ho as (v & <- & Hv).
      split; [eauto|]. intros v' y Hv' Hy. eapply Hall; [apply in_map; exact Hv' | exact Hy].
    + apply map_eq_nil in O7. rewrite O7 in L. cbn in L. lia.
  - intros v Hv. apply in_map_iff in Hv. destruct Hv as (i & <- & Hi). auto.
Qed.
Print Assumptions C39_ideal_point_is_least_so_far.

(** C39 - in every step from a reachable state the normalised objectives, p_m of them for each
    individual, lie in [0, 1). *)
Theorem C39_normalised_objectives_between_0_and_1 :
  forall (P : params) (theta : R) (ar : option (list (vec * vec))) (population : list vec) (Ds : list n3_draws) (s : n3_state) (D : n3_draws),
    n3_setting P -> 2 <= length population -> n3_reaches P theta ar population Ds s -> n3_draws_ok (length population) D ->
    exists offspring offspring' ctx ideal ns,
      make_offspring P D (n3_size s) (n3_individuals s) = Some offspring /\
      update_ideal_point P (n3_ideal s) (n3_context s) offspring = Some (offspring', ctx, ideal) /\
      normalize (p_epsilon P) (p_m P) ideal (offspring' ++ n3_individuals s) = Some ns /\
      length ns = length (offspring' ++ n3_individuals s) /\
      forall n, In n ns -> length n = p_m P /\ Forall (fun x => (0 <= x < 1)%R) n.
Proof.
  intros P theta ar population Ds s D HP Hn HR HD.
  destruct (reaches_ok P theta ar population Ds s HP Hn HR) as (Ok & _). destruct HP as (H1 & H2 & H3 & H4 & H5 & H6 & H7).
  destruct (n3_step_ok P H1 H2 H3 H4 H5 H6 H7 theta (length population) D s HD Ok)
    as (off & off' & ctx & ideal & ns & cs & fronts & EO & _ & EU & _ & _ & EN & HN & _).
  exists off, off', ctx, ideal, ns. split; [exact EO|]. split; [exact EU|]. split; [exact EN|].
  split; [symmetry; eapply Forall2_length'; eauto|]. intros n Hin. destruct (MetProofs.Forall2_In_r _ _ _ _ HN Hin) as (i & _ & H). exact H.
Qed.
Print Assumptions C39_normalised_objectives_between_0_and_1.

(** C39 - the normalised value is (objective - ideal) / (greatest value in the population - ideal +
    epsilon), for whatever population and ideal point it is asked. *)
Theorem C39_normalised_value :
  forall (eps : Z) (m : nat) (ideal : list (option Z)) (inds : list indiv) (ns : list (list R)),
    all_dim m objs inds -> normalize eps m ideal inds = Some ns ->
    length ns = length inds /\
    forall p i n j o, nth_error inds p = Some i -> nth_error ns p = Some n -> nth_error (objs i) j = Some o ->
      exists low high, nth_error ideal j = Some (Some low) /\
        (exists i', In i' inds /\ nth_error (objs i') j = Some high) /\
        (forall i' o', In i' inds -> nth_error (objs i') j = Some o' -> (o' <= high)%Z) /\
        nth_error n j = Some (IZR (o - low) / IZR (high - low + eps))%R.
Proof. exact normalize_values. Qed.
Print Assumptions C39_normalised_value.

(** C40 *)
Theorem C40_reference_points_on_the_simplex :
  forall (objective_no : nat) (rand : nat -> R), 1 <= objective_no -> (forall k, (0 < rand k < 1)%R) ->
    on_simplex objective_no (generate_reference_point objective_no rand) /\
    Forall (fun x => (0 < x)%R) (generate_reference_point objective_no rand).
Proof.
  intros m rand Hm Hr. destruct (reference_loop_ok m rand 0%R Hm Hr ltac:(lra)) as (R1 & R2 & R3).
  split; [|exact R2]. split; [exact R1|]. split; [eapply Forall_impl; [|exact R2]; cbn; intros; lra|].
  unfold generate_reference_point. rewrite R3. lra.
Qed.
Print Assumptions C40_reference_points_on_the_simplex.

(** Two objectives, draw 1/4: the point (3/4, 1/4). *)
Example C40_example : generate_reference_point 2 (fun _ => (1/4)%R) = [(3/4)%R; (1/4)%R].
Proof.
  unfold generate_reference_point. cbn [reference_loop INR]. replace (1 / 1)%R with 1%R by lra. rewrite Rpower_1 by lra.
  f_equal; [lra|]. f_equal. lra.
Qed.

(** C41 - clustering: in every step from a reachable state, every individual gets exactly one
    cluster, that of a reference point whose line is nearest to its normalised objectives, and its
    rejection is that distance. *)
Theorem C41_clusters_are_nearest_reference_lines :
  forall (P : params) (theta : R) (ar : option (list (vec * vec))) (population : list vec) (Ds : list n3_draws) (s : n3_state) (D : n3_draws),
    n3_setting P -> 2 <= length population -> n3_reaches P theta ar population Ds s -> n3_draws_ok (length population) D ->
    exists offspring offspring' ctx ideal ns cs,
      make_offspring P D (n3_size s) (n3_individuals s) = Some offspring /\
      update_ideal_point P (n3_ideal s) (n3_context s) offspring = Some (offspring', ctx, ideal) /\
      normalize (p_epsilon P) (p_m P) ideal (offspring' ++ n3_individuals s) = Some ns /\
      clustering (n3_refs s) ns = Some cs /\ length cs = length (offspring' ++ n3_individuals s) /\
      forall i n, nth_error ns i = Some n ->
        exists c d r, nth_error cs i = Some (c, d) /\ nth_error (n3_refs s) c = Some r /\ line_distance n r d /\
          forall k r' d', nth_error (n3_refs s) k = Some r' -> line_distance n r' d' -> (d <= d')%R.
Proof.
  intros P theta ar population Ds s D HP Hn HR HD.
  destruct (reaches_ok P theta ar population Ds s HP Hn HR) as (Ok & _). destruct HP as (H1 & H2 & H3 & H4 & H5 & H6 & H7).
  destruct (n3_step_ok P H1 H2 H3 H4 H5 H6 H7 theta (length population) D s HD Ok)
    as (off & off' & ctx & ideal & ns & cs & fronts & EO & _ & EU & _ & _ & EN & _ & EC & LC & HC & _).
  exists off, off', ctx, ideal, ns, cs. auto 10.
Qed.
Print Assumptions C41_clusters_are_nearest_reference_lines.

(** C41 - selection: with at least two individuals the step ends with as many individuals as
    before: complete lower fronts of the theta ranking and members of the next one.  If the
    individuals that are best in their cluster fit, they all survive. *)
Theorem C41_selection :
  forall (P : params) (theta : R) (ar : option (list (vec * vec))) (population : list vec) (Ds : list n3_draws) (s : n3_state) (D : n3_draws) (fuel : nat),
    n3_setting P -> 2 <= length population -> n3_reaches P theta ar population Ds s -> n3_draws_ok (length population) D ->
    2 * length population <= fuel ->
    exists offspring offspring' ctx ideal ns cs,
      make_offspring P D (n3_size s) (n3_individuals s) = Some offspring /\
      update_ideal_point P (n3_ideal s) (n3_context s) offspring = Some (offspring', ctx, ideal) /\
      normalize (p_epsilon P) (p_m P) ideal (offspring' ++ n3_individuals s) = Some ns /\
      clustering (n3_refs s) ns = Some cs /\
      let pop := offspring' ++ n3_individuals s in
      let better i j := exists c di dj ni nj r, nth_error cs i = Some (c, di) /\ nth_error cs j = Some (c, dj) /\
        nth_error ns i = Some ni /\ nth_error ns j = Some nj /\ nth_error (n3_refs s) c = Some r /\
        (dot ni r / norm r + theta * di < dot nj r / norm r + theta * dj)%R in
      exists e s' fronts k last kept,
        n3_step P theta fuel D s = Done s' /\
        Forall2 (fun i x => nth_error pop i = Some x) e (n3_individuals s') /\
        length e = length population /\ NoDup e /\
        fronts_by better (length pop) fronts /\ nth_error fronts k = Some last /\
        e = concat (firstn k fronts) ++ kept /\ incl kept last /\
        (forall first, nth_error fronts 0 = Some first -> length first <= length population ->
           forall i, i < length pop -> (forall j, j < length pop -> ~ better j i) -> In i e).
Proof.
  intros P theta ar population Ds s D fuel HP Hn HR HD Hf.
  destruct (reaches_ok P theta ar population Ds s HP Hn HR) as (Ok & _). destruct HP as (H1 & H2 & H3 & H4 & H5 & H6 & H7).
  destruct (n3_step_ok P H1 H2 H3 H4 H5 H6 H7 theta (length population) D s HD Ok)
    as (off & off' & ctx & ideal & ns & cs & fronts & EO & _ & EU & _ & _ & EN & HN & EC & LC & HC & HF & HS & _).
  exists off, off', ctx, ideal, ns, cs. split; [exact EO|]. split; [exact EU|]. split; [exact EN|]. split; [exact EC|].
  set (pop := off' ++ n3_individuals s) in *. intros pop' better. subst pop'.
  destruct (HS Hn fuel Hf) as (e & k & last & kept & EE & E2 & E3 & E4 & E5 & E6 & E7 & E8 & s' & ES & EI & _ & _).
  assert (LN : length pop = length ns) by (eapply Forall2_length'; eauto).
  assert (BB : forall i j, i < length pop -> j < length pop ->
     (better i j <-> fst (nth i cs (0%nat, 0%R)) = fst (nth j cs (0%nat, 0%R)) /\
        (theta_fitness theta (n3_refs s) (nth i ns []) (nth i cs (0%nat, 0%R)) < theta_fitness theta (n3_refs s) (nth j ns []) (nth j cs (0%nat, 0%R)))%R)).
  { intros i j Hi Hj. unfold better, theta_fitness, scalar_projection.
    destruct (nth_error ns i) as [ni|] eqn:Ni; [|apply nth_error_None in Ni; lia].
    destruct (nth_error ns j) as [nj|] eqn:Nj; [|apply nth_error_None in Nj; lia].
    destruct (HC i ni Ni) as (ci & di & ri & Ci & Ri & _). destruct (HC j nj Nj) as (cj & dj & rj & Cj & Rj & _).
    rewrite (nth_error_nth _ _ _ Ni), (nth_error_nth _ _ _ Nj), (nth_error_nth _ _ _ Ci), (nth_error_nth _ _ _ Cj). cbn [fst snd].
    split.
    - intros (c & d1 & d2 & n1 & n2 & r & F1 & F2 & F3 & F4 & F5 & F6). rewrite Ci in F1. rewrite Cj in F2.
      injection F1 as -> ->. injection F2 as -> ->. injection F3 as ->. injection F4 as ->. split; [reflexivity|].
      rewrite (nth_error_nth _ _ _ F5). exact F6.
    - intros (-> & Hlt). rewrite (nth_error_nth _ _ _ Rj) in Hlt. exists cj, di, dj, ni, nj, rj. auto 10. }
  assert (FB : fronts_by better (length pop) fronts).
  { destruct HF as (FP & FN & FF). split; [exact FP|]. split; [exact FN|]. intros q front i Hq. rewrite (FF q front i Hq).
    split; (intros (A & B & C); split; [exact A|]; split; [exact B|]; intros j Hj Hnj; specialize (C j Hj Hnj);
      rewrite BB in * by (exact A || exact Hj); exact C). }
  exists e, s', fronts, k, last, kept. split; [exact ES|]. split.
  { rewrite EI. clear - E4. induction e as [|i e IH]; cbn; constructor.
    - unfold at_pos. apply nth_error_nth'. apply E4. now left.
    - apply IH. intros j Hj. apply E4. now right. }
  split; [exact E2|]. split; [exact E3|]. split; [exact FB|]. split; [exact E5|]. split; [exact E6|]. split; [exact E7|].
  intros first Hfst HLf i Hi Hbest. destruct FB as (_ & _ & FF).
  assert (Hin : In i first).
  { apply (FF 0 first i Hfst). split; [exact Hi|]. split; [intros []|]. intros j Hj _. now apply Hbest. }
  rewrite E6. apply in_or_app. left. destruct k as [|k].
  - rewrite Hfst in E5. injection E5 as ->. cbn in E8. lia.
  - destruct fronts as [|f0 fronts']; [discriminate|]. cbn in Hfst. injection Hfst as ->. cbn. apply in_or_app. now left.
Qed.
Print Assumptions C41_selection.

(** C84 - runs: with two or more individuals the constructor and all steps succeed; the population
    keeps its size, stays in the box and consists of trimmed vectors; the cost is the number of evaluated vectors. *)
Theorem C84_nsgaiii_run :
  forall (P : params) (theta : R) (rands : nat -> nat -> R) (fuel : nat) (ar : option (list (vec * vec))) (population : list vec) (Ds : list n3_draws),
    n3_setting P -> 2 <= length population -> (forall k i, (0 < rands k i < 1)%R) ->
    (forall m k o, ar = Some m -> lookup k m = Some o -> o = p_f P k) -> Forall (in_box (p_dims P)) population ->
    Forall (n3_draws_ok (length population)) Ds -> 2 * length population <= fuel ->
    exists s0 s, n3_init P rands ar population = Some s0 /\ n3_steps P theta fuel Ds s0 = Done s /\
      length (n3_finalized s) = length population /\
      Forall (fun v => in_box (p_dims P) v /\ p_trim P v = v) (n3_finalized s) /\
      fst (fst (n3_context s)) = length (snd (n3_context s)) /\
      Forall (in_box (p_dims P)) (snd (n3_context s)) /\
      length (n3_refs s) = length population /\ Forall (on_simplex (p_m P)) (n3_refs s).
Proof.
  intros P theta rands fuel ar population Ds (H1 & H2 & H3 & H4 & H5 & H6 & H7) Hn Hr Har Hp HD Hf.
  destruct (n3_init_ok P H2 H3 H4 H5 rands ar population Hr Har Hp) as (s0 & E0 & Ok & _).
  destruct (n3_steps_ok P H1 H2 H3 H4 H5 H6 H7 theta (length population) fuel Hn Hf Ds s0 HD Ok)
    as (s & Es & (O1 & O2 & O3 & O4 & O5 & O6 & O7 & (O8 & _) & O9 & _ & O10) & _).
  exists s0, s. split; [exact E0|]. split; [exact Es|]. unfold n3_finalized. rewrite map_length. split; [exact O2|]. split.
  - rewrite Forall_map. eapply Forall_impl; [|exact O1]. intros i ((B & _) & T). auto.
  - split; [exact O8|]. split; [|auto]. rewrite Forall_forall in *. intros v Hv. auto.
Qed.
Print Assumptions C84_nsgaiii_run.

(** C84 - with fewer than two individuals the first step never ends. *)
Theorem C84_no_end_below_two_individuals :
  forall (P : params) (theta : R) (rands : nat -> nat -> R) (ar : option (list (vec * vec))) (population : list vec) (D : n3_draws),
    n3_setting P -> length population < 2 -> (forall k i, (0 < rands k i < 1)%R) ->
    (forall m k o, ar = Some m -> lookup k m = Some o -> o = p_f P k) -> Forall (in_box (p_dims P)) population ->
    n3_draws_ok (length population) D ->
    exists s0, n3_init P rands ar population = Some s0 /\ forall fuel, n3_step P theta fuel D s0 = OutOfFuel.
Proof.
  intros P theta rands ar population D (H1 & H2 & H3 & H4 & H5 & H6 & H7) Hn Hr Har Hp HD.
  destruct (n3_init_ok P H2 H3 H4 H5 rands ar population Hr Har Hp) as (s0 & E0 & Ok & _).
  exists s0. split; [exact E0|].
  destruct (n3_step_ok P H1 H2 H3 H4 H5 H6 H7 theta (length population) D s0 HD Ok)
    as (off & off' & ctx & ideal & ns & cs & fronts & _ & _ & _ & _ & _ & _ & _ & _ & _ & _ & _ & _ & HH).
  exact (HH Hn).
Qed.
Print Assumptions C84_no_end_below_two_individuals.

(** The hypotheses can be met: two objectives on [-10, 10], two individuals, one step. *)
Definition n3_ex : params :=
  {| p_dims := [(-10, 10)%Z]; p_f := fun v => [Z.abs (hd 0%Z v); Z.abs (hd 0%Z v - 4)]; p_m := 2; p_trim := fun v => v;
     p_crossover_rate := 9%Z; p_mutation_rate := 5%Z;
     p_raw := fun _ _ y r => (y + r)%Z; p_raw_a := fun _ _ a _ r => (a - r)%Z; p_raw_b := fun _ _ _ b r => (b + r)%Z;
     p_half := 5%Z; p_epsilon := 1%Z; p_eps := 1%Q; p_iter := fun _ l => l |}.
Definition n3_ex_draws : n3_draws :=
  {| n3_pick := fun k => (0, 1); n3_r0 := fun _ => 0%Z; n3_skip := fun _ _ => 0%Z; n3_rand := fun _ _ => 1%Z; n3_swap := fun _ _ => 0%Z;
     n3_sel_a := fun _ _ => 9%Z; n3_rnd_a := fun _ _ => 0%Z; n3_sel_b := fun _ _ => 0%Z; n3_rnd_b := fun _ _ => (-2)%Z;
     n3_sample := @firstn nat |}.
Example C84_example :
  n3_setting n3_ex /\ n3_draws_ok 2 n3_ex_draws /\ Forall (in_box (p_dims n3_ex)) [[8]%Z; [-4]%Z] /\
  make_offspring n3_ex n3_ex_draws 2 [mk_indiv [8]%Z (Some [8; 4]%Z); mk_indiv [-4]%Z (Some [4; 8]%Z)]
  = Some [mk_indiv [-5]%Z None; mk_indiv [7]%Z None] /\
  update_ideal_point n3_ex [Some 4; Some 4]%Z (2, None, [[8]; [-4]]%Z) [mk_indiv [-5]%Z None; mk_indiv [7]%Z None]
  = Some ([mk_indiv [-5]%Z (Some [5; 9]%Z); mk_indiv [7]%Z (Some [7; 3]%Z)], (4, None, [[8]; [-4]; [-5]; [7]]%Z), [Some 4; Some 3]%Z).
Proof.
  split; [|split; [|split; [|split; reflexivity]]].
  - repeat split; cbn; try lia; auto. repeat constructor; cbn; lia.
  - split; [|exact firstn_is_sample]. intros k _. cbn. lia.
  - repeat constructor; cbn; lia.
Qed.

(** So the states C39 and C41 speak of exist. *)
Example C39_example : forall theta : R, exists s, n3_reaches n3_ex theta None [[8]; [-4]]%Z [n3_ex_draws] s.
Proof.
  intros theta. destruct C84_example as (H1 & H2 & H3 & _).
  assert (R : forall k i : nat, (0 < (fun _ _ : nat => / 2) k i < 1)%R) by (intros; cbv beta; lra).
  assert (A : forall m k o, @None (list (vec * vec)) = Some m -> lookup k m = Some o -> o = p_f n3_ex k) by discriminate.
  assert (D : Forall (n3_draws_ok 2) [n3_ex_draws]) by (constructor; [exact H2|constructor]).
  destruct (C84_nsgaiii_run n3_ex theta (fun _ _ => / 2)%R 4 None [[8]; [-4]]%Z [n3_ex_draws] H1 (le_n 2) R A H3 D (le_n 4)) as (s0 & s & E0 & E & _).
  exists s, (fun _ _ => / 2)%R, 4, s0. split; [exact R|]. split; [exact A|]. split; [exact H3|]. split; [exact D|]. split; [exact (le_n 4)|]. split; assumption.
Qed.
