(** C127, C128: IMGA over each of the drivers its islands can be configured with. *)
From Coq Require Import QArith Reals Lra.
From Verif Require Import Spec Base DomModel VarModel NDSortModel NsgaModel NsgaProps SpeaSpec SpeaModel IbeaModel IbeaSpec IbeaProofs SmsSpec SmsModel JgblSpec JgblModel OmopsoSpec OmopsoModel
  Nsga3Spec Nsga3Model NslsSpec NslsModel HgsDriversModel HgsDriversSpec HgsDriversContracts ImgaModel ImgaSpec ImgaRunModel ImgaDriversModel ImgaDriversSpec ImgaDriversProofs HgsDriversProps.
Local Open Scope nat_scope.

(** C127 - whichever of these drivers the islands run, no run of IMGA raises; the individuals and the result stay within the
    bounds; the islands' sizes, what they return and what they spend are as given.  JGBL, ... *)
Theorem C127_jgbl : forall (P : params) (mating : nat -> nat),
  valid_box (p_dims P) -> fair_problem (p_dims P) P -> (0 < p_eps P)%Q ->
  safe_in_imga (jgbl_island_driver P mating) (p_dims P) (p_f P)
    {| fewest := 1; room := fun N k => k = N \/ k = N + mating N; returned := fun T N k => k = N; spent := fun T N c => N + T * mating N <= c |}.
Proof. intros P mating Vb Fa He. eapply contract_safe; [exact (proj1 (proj2 (proj2 Fa))) | now apply jgbl_island_contract]. Qed.

(** ... SPEA2, which returns nothing before its first step, ... *)
Theorem C127_spea2 : forall P : params, valid_box (p_dims P) -> fair_problem (p_dims P) P ->
  safe_in_imga (spea_island_driver P) (p_dims P) (p_f P)
    (constant_size 2 (fun T N k => k = if T =? 0 then 0 else N) (fun T N c => c = N * T)).
Proof. intros P Vb Fa. eapply contract_safe; [exact (proj1 (proj2 (proj2 Fa))) | now apply spea_island_contract]. Qed.

(** ... SMS-EMOA, with up to three objectives and a reference point to match, ... *)
Theorem C127_smsemoa : forall a : sms_args, let P := sa_params a in
  valid_box (p_dims P) -> fair_problem (p_dims P) P -> 1 <= length (sa_ref a) <= 3 -> p_m P = length (sa_ref a) ->
  (length (sa_ref a) = 3 -> forall v, Forall2 (fun x r => (sa_neg a <= x - r)%Z) (p_f P v) (sa_ref a)) ->
  safe_in_imga (sms_island_driver a) (p_dims P) (p_f P)
    (constant_size 2 (fun T N k => k = N) (fun T N c => c = N + T * sa_epoch a N * N)).
Proof.
  intros a P Vb Fa H1 H2 H3. eapply contract_safe; [exact (proj1 (proj2 (proj2 Fa)))|]. apply sms_island_contract; [exact Vb|].
  split; [exact Fa | auto].
Qed.

(** ... OMOPSO, which returns at least one leader per island, ... *)
Theorem C127_omopso : forall (P : params) (eta_numerator eta_denominator : Z),
  valid_box (p_dims P) -> fair_problem (p_dims P) P -> 1 <= p_m P ->
  safe_in_imga (omopso_island_driver P eta_numerator eta_denominator) (p_dims P) (p_f P)
    (constant_size 1 (fun T N k => 1 <= k) (fun T N c => c = N * (1 + T))).
Proof. intros P en ed Vb Fa Hm. eapply contract_safe; [exact (proj1 (proj2 (proj2 Fa))) | now apply omopso_island_contract]. Qed.

(** ... NSGA-III, ... *)
Theorem C127_nsgaiii : forall (P : params) (theta : R) (rands : nat -> nat -> R),
  n3_setting P -> (forall k i, (0 < rands k i < 1)%R) ->
  safe_in_imga (n3_island_driver P theta rands) (p_dims P) (p_f P)
    (constant_size 2 (fun T N k => k = N) (fun T N c => c <= N + T * (2 * (N / 2)))).
Proof. intros P theta rands HS Hr. eapply contract_safe; [apply HS | now apply n3_island_contract]. Qed.

(** ... and IBEA, which evaluates parents and offspring alike in every step. *)
Theorem C127_ibea : forall (P : params) (eps kappa : R) (mating : nat -> nat),
  valid_box (p_dims P) -> fair_problem (p_dims P) P -> 1 <= p_m P ->
  safe_in_imga (ibea_island_driver P eps kappa mating) (p_dims P) (p_f P)
    {| fewest := 1; room := fun N k => k = N + mating N; returned := fun T N k => k = N; spent := fun T N c => c = N + T * (N + mating N) |}.
Proof. intros P eps kappa mating Vb Fa Hm. eapply contract_safe; [exact (proj1 (proj2 (proj2 Fa))) | now apply ibea_island_contract]. Qed.

(** NSLS: the same of the runs that end.  What is missing is that they end, and the cost. *)
Theorem C127_nsls_partial : forall P : params,
  fair_problem (p_dims P) P -> 1 <= p_m P -> (forall k v, in_box_except k (p_dims P) v -> in_box_except k (p_dims P) (p_trim P v)) ->
  sound_in_imga (nsls_island_driver P) (p_dims P) (p_f P) (constant_size 2 (fun T N k => k = N) (fun T N c => True)).
Proof.
  intros P Fa Hm Ht. apply patient_sound. eapply contract_safe; [exact (proj1 (proj2 (proj2 Fa))) | now apply nsls_island_contract].
Qed.

(** Whichever the driver: what the islands work with after an epoch is the outcome of the migration between them. *)
Theorem C127_migrants_arrive : forall (P : params) (a : sms_args) (mating : nat -> nat) (eps kappa theta : R) (rands : nat -> nat -> R) (en ed : Z),
  epochs_then_migration (nsga_island_driver P mating) (p_f P) /\ epochs_then_migration (jgbl_island_driver P mating) (p_f P) /\
  epochs_then_migration (spea_island_driver P) (p_f P) /\ epochs_then_migration (sms_island_driver a) (p_f (sa_params a)) /\
  epochs_then_migration (omopso_island_driver P en ed) (p_f P) /\ epochs_then_migration (n3_island_driver P theta rands) (p_f P) /\
  epochs_then_migration (ibea_island_driver P eps kappa mating) (p_f P) /\ epochs_then_migration (nsls_island_driver P) (p_f P).
Proof. intros P a mating eps kappa theta rands en ed. repeat (split; [apply imga_parts; reflexivity|]). apply imga_parts; reflexivity. Qed.

(** ---- Examples: two islands of four, two epochs of two steps, one emigrant at a time. ---- *)
Definition id_draws {draw} (x : draw) : imga_draws draw :=
  {| in_epoch := fun _ => [x; x]; completion := [1; 0]; in_migration := fun i j => [((1 # 3)%Q, i + 2 * j)] |}.
Definition id_population : list vec := [[1]; [3]; [9]; [2]; [0]; [6]; [8]; [5]]%Z.
Definition id_topology : list (list nat) := [[1; 0]; [0; 1]].
Lemma id_torus : torus 2 2 = Some [[1; 1; 0; 0]; [0; 0; 1; 1]] /\ same_sets [[1; 1; 0; 0]; [0; 0; 1; 1]] id_topology.
Proof.
  split; [reflexivity|].
  constructor; [|constructor; [|constructor]]; (split; [constructor; [cbn; intuition congruence | constructor; [intros [] | constructor]] | intros x; cbn; tauto]).
Qed.
Lemma id_proper {draw} (x : draw) b pop : Forall (in_box b) pop -> 2 <= length pop -> proper_imga b 2 2 1 2 pop id_topology [id_draws x; id_draws x].
Proof.
  intros Hb Hl. constructor; [exact Hb | lia | lia | lia | exists [[1; 1; 0; 0]; [0; 0; 1; 1]]; exact id_torus|].
  assert (G : (forall k, length (in_epoch (id_draws x) k) = 2) /\ Permutation (completion (id_draws x)) (seq 0 2) /\
     (forall i j, Forall draw_ok (in_migration (id_draws x) i j) /\ length (in_migration (id_draws x) i j) = 1)).
  { split; [reflexivity|]. split; [apply perm_swap|]. intros i j. split; [|reflexivity]. constructor; [split; cbn; [discriminate | reflexivity] | constructor]. }
  constructor; [exact G | constructor; [exact G | constructor]].
Qed.
Definition id_ran {draw drv ind} (I : island_driver draw drv ind) f (x : draw) (pop : list vec) : option (list (list vec) * list nat * nat * list vec) :=
  match start_imga I id_topology 2 pop with
  | Some s0 => match run_imga I f [id_draws x; id_draws x] s0 with
               | Some s => match result_imga I s with
                           | Some out => Some (map (fun d => map (i_value I) (i_inds I d)) (imga_drivers s), map (i_cost I) (imga_drivers s), imga_cost s, out)
                           | None => None
                           end
               | None => None
               end
  | None => None
  end.
Lemma id_box : Forall (in_box hd_box) id_population.
Proof. repeat constructor; simpl; lia. Qed.

Definition id_jumps : { J : jump_draws | jump_ok hd_box J }.
Proof.
  exists {| j_union := fun l => l; j_union2 := fun l => l; j_jumps := fun _ => false; j_choice := fun k => k;
            j_cut := fun _ x y => (x, y); j_copy := fun _ x y => (x, y) |}.
  split; [reflexivity|]. split; [reflexivity|]. cbn. auto.
Defined.
Definition id_jgbl := jgbl_island_driver (hd_problem hd_tradeoff 2) (fun n => n / 2).
Example C127_example_jgbl :
  fair_problem hd_box (hd_problem hd_tradeoff 2) /\ proper_imga hd_box 2 2 1 2 id_population id_topology [id_draws (hd_step_draws, id_jumps); id_draws (hd_step_draws, id_jumps)] /\
  room_to_leave {| fewest := 1; room := fun N k => k = N \/ k = N + N / 2; returned := fun T N k => k = N; spent := fun T N c => N + T * (N / 2) <= c |} 2 1 id_population /\
  id_ran id_jgbl hd_tradeoff (hd_step_draws, id_jumps) id_population =
    Some ([[[1]; [3]; [10]; [0]]; [[4]; [7]; [7]; [8]]]%Z, [12; 12], 24, [[10]; [0]; [3]; [1]; [4]; [8]; [7]; [7]]%Z).
Proof.
  split; [now apply hd_fair|]. split; [apply id_proper; [exact id_box | cbn; lia]|]. split; [|vm_compute; reflexivity].
  intros N k HN Hk. change (length id_population / 2) with 4 in HN. cbn [room] in Hk. pose proof (Nat.le_0_l (N / 2)). lia.
Qed.

Lemma id_room least returns spends migrants pop : migrants * 4 <= length pop / 2 -> room_to_leave (constant_size least returns spends) 2 migrants pop.
Proof. intros H N k HN Hk. cbn [constant_size room] in Hk. lia. Qed.

Example C127_example_smsemoa :
  sms_setting hd_box hd_sms_args /\ proper_imga hd_box 2 2 1 2 id_population id_topology [id_draws hd_sms_draws; id_draws hd_sms_draws] /\
  room_to_leave (constant_size 2 (fun T N k => k = N) (fun T N c => c = N + T * 1 * N)) 2 1 id_population /\
  id_ran (sms_island_driver hd_sms_args) hd_tradeoff hd_sms_draws id_population =
    Some ([[[8]; [2]; [9]; [0]]; [[1]; [1]; [3]; [5]]]%Z, [20; 20], 40, [[8]; [2]; [9]; [0]; [1]; [1]; [3]; [5]]%Z).
Proof.
  split; [split; [now apply hd_fair|]; split; [cbn; lia|]; split; [reflexivity|]; cbn; lia|]. split; [apply id_proper; [exact id_box | cbn; lia]|].
  split; [apply id_room; cbn; lia|]. vm_compute. reflexivity.
Qed.

Example C127_example_omopso :
  fair_problem hd_box (hd_problem hd_identity 1) /\ proper_imga hd_box 2 2 1 2 id_population id_topology [id_draws hd_om_draws; id_draws hd_om_draws] /\
  room_to_leave (constant_size 1 (fun T N k => 1 <= k) (fun T N c => c = N * (1 + T))) 2 1 id_population /\
  id_ran (omopso_island_driver (hd_problem hd_identity 1) 75 10000) hd_identity hd_om_draws id_population =
    Some ([[[5]; [9]; [3]; [2]]; [[8]; [8]; [2]; [5]]]%Z, [20; 20], 40, [[1]; [0]]%Z).
Proof.
  split; [now apply hd_fair|]. split; [apply id_proper; [exact id_box | cbn; lia]|].
  split; [apply id_room; cbn; lia|]. vm_compute. reflexivity.
Qed.

(** The hypotheses of the others; their runs compute with reals. *)
Definition id_spea_draws := hd_spea_draws.
Definition id_n3_draws : { D : nat -> n3_draws | forall n, 2 <= n -> n3_draws_ok n (D n) }.
Proof.
  exists (fun n => {| n3_pick := fun k => (0, 1); n3_r0 := fun _ => 1%Z; n3_skip := fun _ _ => 0%Z; n3_rand := fun _ _ => 1%Z; n3_swap := fun _ _ => 0%Z;
                      n3_sel_a := fun _ _ => 9%Z; n3_rnd_a := fun _ _ => 1%Z; n3_sel_b := fun _ _ => 9%Z; n3_rnd_b := fun _ _ => 1%Z; n3_sample := @firstn nat |}).
  intros n Hn. split; [cbn; lia | exact NslsProps.firstn_is_sample].
Defined.
Example C127_example_others :
  proper_imga hd_box 2 2 1 2 id_population id_topology [id_draws hd_spea_draws; id_draws hd_spea_draws] /\
  proper_imga hd_box 2 2 1 2 id_population id_topology [id_draws id_n3_draws; id_draws id_n3_draws] /\
  proper_imga hd_box 2 2 1 2 id_population id_topology [id_draws hd_step_draws; id_draws hd_step_draws] /\
  n3_setting (hd_problem hd_tradeoff 2) /\
  room_to_leave {| fewest := 1; room := fun N k => k = N + N; returned := fun T N k => k = N; spent := fun T N c => c = N + T * (N + N) |} 2 1 id_population.
Proof.
  split; [apply id_proper; [exact id_box | cbn; lia]|]. split; [apply id_proper; [exact id_box | cbn; lia]|]. split; [apply id_proper; [exact id_box | cbn; lia]|].
  split.
  - split; [exact hd_valid|]. split; [auto|]. split; [reflexivity|]. split; [reflexivity|]. split; [cbn; lia|]. split; [cbn; lia | reflexivity].
  - intros N k HN Hk. change (length id_population / 2) with 4 in HN. cbn [room] in Hk. lia.
Qed.

(** C127 - NSLS can hang in an epoch (C38). *)
Definition id_nsls_draws : { x : nl_island_draws | nl_island_draws_ok x }.
Proof.
  exists {| nli_search := fun _ => {| ls_sample := fun _ _ => (0, 1); ls_scaled := fun _ _ d => (d / 4)%Z; ls_coin := fun _ _ => true |}; nli_sample := @firstn nat |}.
  split; [|exact NslsProps.firstn_is_sample]. intros n i k Hn. cbn. lia.
Defined.
Theorem C127_nsls_refuted : exists P : params,
  valid_box (p_dims P) /\ fair_problem (p_dims P) P /\ 1 <= p_m P /\ (forall v, p_trim P v = v) /\
  ~ safe_in_imga (nsls_island_driver P) (p_dims P) (p_f P) (constant_size 2 (fun T N k => k = N) (fun T N c => True)).
Proof.
  exists (hd_problem hd_two_best 1). split; [exact hd_valid|]. split; [now apply hd_fair|]. split; [cbn; lia|]. split; [reflexivity|]. intros H.
  set (D := {| in_epoch := fun _ => [id_nsls_draws]; completion := [0]; in_migration := fun i j => [] |} : imga_draws _).
  destruct (H 1 1 0 1 [[1]; [5]]%Z [[0]] [D]) as (s0 & s & out & E0 & E & _).
  - constructor; [repeat constructor; simpl; lia | lia | cbn; lia | lia | | ].
    + exists [[0; 0; 0; 0]]. split; [reflexivity|]. constructor; [|constructor]. split; [constructor; [intros [] | constructor]|]. intros x; cbn; tauto.
    + constructor; [|constructor]. split; [reflexivity|]. split; [reflexivity|]. intros i j. split; [constructor | reflexivity].
  - cbn. lia.
  - intros N k HN Hk. cbn. lia.
  - assert (X : match start_imga (nsls_island_driver (hd_problem hd_two_best 1)) [[0]] 1 [[1]; [5]]%Z with
                | Some s0 => run_imga (nsls_island_driver (hd_problem hd_two_best 1)) hd_two_best [D] s0 | None => None end = None) by (vm_compute; reflexivity).
    rewrite E0 in X. cbn [p_f hd_problem] in E. congruence.
Qed.

(** ---- C128: what migration does to the drivers' ideas of the objectives' ranges ---- *)
(** The identity on 0..10, and variation that changes nothing; the first island starts at 5 and the second at 1. *)
Definition st_problem : params :=
  {| p_dims := [(0, 10)]%Z; p_f := hd_identity; p_m := 1; p_trim := fun v => v; p_crossover_rate := 5; p_mutation_rate := 5;
     p_raw := fun lb ub y r => y; p_raw_a := fun lb ub y1 y2 r => y1; p_raw_b := fun lb ub y1 y2 r => y2;
     p_half := 5; p_epsilon := 1; p_eps := 1 # 1000; p_iter := fun _ l => l |}.
Definition st_population : list vec := [[5]; [5]; [5]; [5]; [1]; [1]; [1]; [1]]%Z.
Definition st_draws {draw} (x : draw) : imga_draws draw :=
  {| in_epoch := fun _ => [x]; completion := [1; 0]; in_migration := fun i j => [((1 # 3)%Q, i + 2 * j)] |}.
Lemma st_proper {draw} (x : draw) : proper_imga (p_dims st_problem) 2 2 1 1 st_population id_topology [st_draws x].
Proof.
  constructor; [repeat constructor; simpl; lia | lia | cbn; lia | lia | exists [[1; 1; 0; 0]; [0; 0; 1; 1]]; exact id_torus|].
  constructor; [|constructor]. split; [reflexivity|]. split; [apply perm_swap|]. intros i j. split; [|reflexivity].
  constructor; [split; cbn; [discriminate | reflexivity] | constructor].
Qed.
Lemma st_setting : n3_setting st_problem.
Proof. split; [exact hd_valid|]. split; [auto|]. split; [reflexivity|]. split; [reflexivity|]. split; [cbn; lia|]. split; [cbn; lia | reflexivity]. Qed.

Definition st_ind (v : Z) : indiv := mk_indiv [v] (Some [v]).
Definition st_island (v : Z) (refs : list (list R)) (c : nat) : n3_state :=
  {| n3_individuals := repeat (st_ind v) 4; n3_size := 4; n3_refs := refs; n3_ideal := [Some v]; n3_context := (4 * c, None, repeat [v] (4 * c)); n3_seen := repeat [v] (4 * c) |}.

Lemma st_step v refs theta s' : v = 5%Z \/ v = 1%Z -> Nsga3Proofs.n3_open st_problem 4 (st_island v refs 1) ->
  n3_step st_problem theta 8 (proj1_sig id_n3_draws 4) (st_island v refs 1) = Done s' -> s' = st_island v refs 2.
Proof.
  intros Hv Ok E. destruct st_setting as (Vb & Ht & Hid & Hf & Hm & He & Hi).
  destruct (Nsga3Proofs.n3_open_step st_problem Vb Ht Hid Hf Hm He Hi theta 4 (proj1_sig id_n3_draws 4) (st_island v refs 1) ltac:(lia) (proj2_sig id_n3_draws 4 ltac:(lia)) Ok)
    as (s1 & E1 & (F & L & _) & _). change (2 * 4) with 8 in E1. rewrite E in E1. injection E1 as <-.
  unfold n3_step in E.
  assert (EO : make_offspring st_problem (proj1_sig id_n3_draws 4) (n3_size (st_island v refs 1)) (n3_individuals (st_island v refs 1)) = Some (repeat (mk_indiv [v] None) 4))
    by (destruct Hv as [-> | ->]; vm_compute; reflexivity).
  rewrite EO in E. clear EO.
  assert (EU : update_ideal_point st_problem (n3_ideal (st_island v refs 1)) (n3_context (st_island v refs 1)) (repeat (mk_indiv [v] None) 4) =
               Some (repeat (st_ind v) 4, n3_context (st_island v refs 2), [Some v]))
    by (destruct Hv as [-> | ->]; vm_compute; reflexivity).
  rewrite EU in E. clear EU. cbv zeta in E.
  match type of E with match ?a with _ => _ end = _ => destruct a as [ns|]; [|discriminate] end.
  match type of E with match ?a with _ => _ end = _ => destruct a as [cs|]; [|discriminate] end.
  match type of E with match ?a with _ => _ end = _ => destruct a as [fronts|]; [|discriminate] end.
  match type of E with match ?a with _ => _ end = _ => destruct a as [pos| |]; [|discriminate | discriminate] end.
  injection E as <-. cbn [n3_individuals] in F, L. unfold st_island. f_equal.
  rewrite <- L. apply Forall_eq_repeat. apply Forall_forall. intros x Hx. rewrite Forall_forall in F. pose proof (F x Hx) as ((B & _) & _).
  apply in_map_iff in Hx. destruct Hx as (i & <- & _). unfold at_pos in *. cbn [st_island n3_individuals repeat app] in *.
  do 8 (destruct i as [|i]; [reflexivity|]). exfalso. cbn in B. destruct i; cbn in B; inversion B.
Qed.

Lemma st_init (rands : nat -> nat -> R) v : v = 5%Z \/ v = 1%Z ->
  n3_init st_problem rands None (repeat [v] 4) = Some (st_island v (map (fun k => generate_reference_point 1 (rands k)) (seq 0 4)) 1).
Proof. intros [-> | ->]; reflexivity. Qed.

Lemma st_open rands v : (forall k i, (0 < rands k i < 1)%R) -> v = 5%Z \/ v = 1%Z ->
  Nsga3Proofs.n3_open st_problem 4 (st_island v (map (fun k => generate_reference_point 1 (rands k)) (seq 0 4)) 1).
Proof.
  intros Hr Hv. destruct st_setting as (Vb & Ht & Hid & Hf & Hm & He & Hi).
  destruct (Nsga3Proofs.n3_init_ok st_problem Ht Hid Hf Hm rands None (repeat [v] 4) Hr) as (s & E & Ok & _); [discriminate | destruct Hv as [-> | ->]; repeat constructor; simpl; lia|].
  rewrite (st_init rands v Hv) in E. apply some_inj in E. rewrite E. apply Nsga3Proofs.n3_ok_open. exact Ok.
Qed.

Lemma st_run theta rands : (forall k i, (0 < rands k i < 1)%R) ->
  let refs := map (fun k => generate_reference_point 1 (rands k)) (seq 0 4) in
  exists s0 s, start_imga (n3_island_driver st_problem theta rands) id_topology 2 st_population = Some s0 /\
    run_imga (n3_island_driver st_problem theta rands) hd_identity [st_draws id_n3_draws] s0 = Some s /\
    nth_error (imga_drivers s) 0 = Some (n3_replace (st_island 5 refs 2) [st_ind 5; st_ind 5; st_ind 5; st_ind 1]).
Proof.
  intros Hr refs.
  destruct (C127_nsgaiii st_problem theta rands st_setting Hr 2 2 1 1 st_population id_topology [st_draws id_n3_draws] (st_proper _)) as (s0 & s & out & E0 & E & _);
    [cbn; lia | apply id_room; cbn; lia|].
  exists s0, s. split; [exact E0|]. split; [exact E|].
  assert (X : s0 = {| imga_topology := id_topology; imga_drivers := [st_island 5 refs 1; st_island 1 refs 1]; imga_cost := 0 |}).
  { apply some_inj. rewrite <- E0. unfold start_imga, imga_init. change (create_islands 2 st_population) with (Some [repeat [5]%Z 4; repeat [1]%Z 4]). cbn [map i_new n3_island_driver collect].
    rewrite (st_init rands 5), (st_init rands 1) by auto. reflexivity. }
  subst s0. clear E0. unfold run_imga in E. cbn [imga_steps] in E. unfold imga_step in E. cbn [imga_drivers length seq combine map fst snd in_epoch st_draws epoch] in E.
  cbn [n3_island_driver i_step i_cost i_inds i_set i_value i_admit] in E. cbn [st_island n3_size] in E.
  fold (st_island 5 refs 1) in E. fold (st_island 1 refs 1) in E. change (2 * 4) with 8 in E.
  destruct (n3_step st_problem theta 8 (proj1_sig id_n3_draws 4) (st_island 5 refs 1)) as [a| |] eqn:Ea; [|discriminate | discriminate].
  apply st_step in Ea; [|auto | apply st_open; auto]. subst a.
  destruct (n3_step st_problem theta 8 (proj1_sig id_n3_draws 4) (st_island 1 refs 1)) as [a| |] eqn:Ea; [|discriminate | discriminate].
  apply st_step in Ea; [|auto | apply st_open; auto]. subst a.
  cbn [collect] in E. cbv zeta in E. cbn [map fst snd n3_individuals st_island imga_topology] in E.
  match type of E with context [migration ?a ?b ?c ?d ?e ?f] => let r := eval vm_compute in (migration a b c d e f) in change (migration a b c d e f) with r in E end.
  cbv iota in E.
  injection E as <-. reflexivity.
Qed.

(** C128 - NSGA-III promises normalised objectives between 0 and 1 (C39).  On an island it does not keep that: update_ideal_point()
    never sees an immigrant, and one that is better than everything the island has evaluated gets a negative coordinate. *)
Theorem C128_nsgaiii_refuted : exists P : params, n3_setting P /\
  forall (theta : R) (rands : nat -> nat -> R), (forall k i, (0 < rands k i < 1)%R) ->
  exists width islands migrants epoch_length pop topology Ds s0 s d D,
    proper_imga (p_dims P) width islands migrants epoch_length pop topology Ds /\ migrants * 4 <= length pop / islands /\
    start_imga (n3_island_driver P theta rands) topology islands pop = Some s0 /\ run_imga (n3_island_driver P theta rands) (p_f P) Ds s0 = Some s /\
    In d (imga_drivers s) /\ n3_draws_ok (n3_size d) D /\
    exists offspring offspring' ctx ideal ns n x,
      make_offspring P D (n3_size d) (n3_individuals d) = Some offspring /\
      update_ideal_point P (n3_ideal d) (n3_context d) offspring = Some (offspring', ctx, ideal) /\
      normalize (p_epsilon P) (p_m P) ideal (offspring' ++ n3_individuals d) = Some ns /\ In n ns /\ In x n /\ (x < 0)%R.
Proof.
  exists st_problem. split; [exact st_setting|]. intros theta rands Hr. destruct (st_run theta rands Hr) as (s0 & s & E0 & E & Hd).
  eexists 2, 2, 1, 1, st_population, id_topology, [st_draws id_n3_draws], s0, s, _, (proj1_sig id_n3_draws 4).
  split; [apply st_proper|]. split; [cbn; lia|]. split; [exact E0|]. split; [exact E|]. split; [exact (nth_error_In _ _ Hd)|]. split; [exact (proj2_sig id_n3_draws 4 ltac:(lia))|].
  clear. set (refs := map _ _).
  exists (repeat (mk_indiv [5]%Z None) 4), (repeat (st_ind 5) 4), (12, None, repeat [5]%Z 12), [Some 5%Z],
    (map (fun o => [(IZR (o - 5) / IZR (5 - 5 + 1))%R]) [5; 5; 5; 5; 5; 5; 5; 1]%Z), [(IZR (1 - 5) / IZR (5 - 5 + 1))%R], (IZR (1 - 5) / IZR (5 - 5 + 1))%R.
  split; [reflexivity|]. split; [reflexivity|]. split; [reflexivity|]. split; [cbn; tauto|]. split; [now left|].
  cbn [Z.sub Z.add Z.opp Z.pos_sub Pos.pred_double]. cbn. lra.
Qed.

(** The same for IBEA: it scales objectives to 0..1 by the ranges of the individuals it had before the migration. *)
Definition st_ibea (eps kappa : R) : ibea_params := {| ip := st_problem; ip_eps := eps; ip_kappa := kappa; ip_fa := None |}.
Lemma st_child v mating i c : v = 5%Z \/ v = 1%Z -> i < 4 -> Forall (fun x => x < 4) mating ->
  ibea_child st_problem hd_step_draws (repeat (mk_ibea [v] true) 4) mating 4 i = Some c -> c = mk_ibea [v] false.
Proof.
  intros Hv Hi F E. unfold ibea_child in E. rewrite Forall_forall in F.
  destruct (nth_error mating i) as [a|] eqn:Ea; [|discriminate]. destruct (nth_error mating (4 + i)) as [b|] eqn:Eb; [|discriminate].
  apply nth_error_In, F in Ea. apply nth_error_In, F in Eb.
  assert (G : forall x, x < 4 -> ib_vec (repeat (mk_ibea [v] true) 4) x = [v]) by (intros x Hx; do 4 (destruct x as [|x]; [reflexivity|]); lia).
  rewrite (G a Ea), (G b Eb) in E. clear - Hv Hi E.
  destruct Hv as [-> | ->]; (destruct i as [|[|[|[|i]]]]; [..|lia]); vm_compute in E; injection E as <-; reflexivity.
Qed.

Lemma st_ibea_step eps kappa v s' : v = 5%Z \/ v = 1%Z -> ibi_step (st_ibea eps kappa) hd_step_draws (ibi_init (st_ibea eps kappa) (fun n => n) (repeat [v] 4)) = Some s' ->
  ib_individuals (ibi_state s') = repeat (mk_ibea [v] true) 8 /\ ibi_measured s' = repeat [v] 8 .
Proof.
  intros Hv E. set (s := ibi_init _ _ _) in E.
  assert (Es : ib_individuals (ibi_state s) = repeat (mk_ibea [v] true) 4 /\ ib_size (ibi_state s) = 4 /\ ib_mating (ibi_state s) = 4) by (repeat split).
  destruct Es as (I1 & I2 & I3).
  assert (Inv : ibea_inv (st_ibea eps kappa) 4 4 4 4 4 (ibi_state s)).
  { apply (ibea_start (st_ibea eps kappa) (fun n => n) (repeat [v] 4)); [auto | cbn; lia | cbn; lia | destruct Hv as [-> | ->]; repeat constructor; simpl; lia]. }
  unfold ibi_step in E.
  destruct (ibi_select_ok (st_ibea eps kappa) 4 4 4 4 4 s) as (surv & fit & Esel & Ls & _ & Fs); [cbn; lia | lia | exact Inv | discriminate|].
  rewrite Esel in E. clear Esel. cbv zeta in E. rewrite I1, I3 in E.
  destruct (ibea_mating_ok (st_ibea eps kappa) (le_n 1) 4 4 ltac:(lia) hd_step_draws fit surv) as (mating & Em & _ & Im); [intros ->; discriminate|].
  rewrite Em in E. clear Em.
  assert (Fm : Forall (fun x => x < 4) mating) by (apply Forall_forall; intros x Hx; rewrite Forall_forall in Fs; auto).
  cbn [st_ibea ip] in E.
  destruct (collect (map (ibea_child st_problem hd_step_draws (repeat (mk_ibea [v] true) 4) mating 4) (seq 0 4))) as [children|] eqn:Ec; [|discriminate].
  apply some_inj in E. subst s'.
  assert (Ech : children = repeat (mk_ibea [v] false) 4).
  { cbn [seq map collect] in Ec.
    destruct (ibea_child st_problem hd_step_draws (repeat (mk_ibea [v] true) 4) mating 4 0) as [c0|] eqn:C0; [|discriminate].
    destruct (ibea_child st_problem hd_step_draws (repeat (mk_ibea [v] true) 4) mating 4 1) as [c1|] eqn:C1; [|discriminate].
    destruct (ibea_child st_problem hd_step_draws (repeat (mk_ibea [v] true) 4) mating 4 2) as [c2|] eqn:C2; [|discriminate].
    destruct (ibea_child st_problem hd_step_draws (repeat (mk_ibea [v] true) 4) mating 4 3) as [c3|] eqn:C3; [|discriminate].
    apply st_child in C0; auto. apply st_child in C1; auto. apply st_child in C2; auto. apply st_child in C3; auto. subst. injection Ec as <-. reflexivity. }
  subst children.
  assert (Ek : map (fun x => nth x (repeat (mk_ibea [v] true) 4) (mk_ibea [] false)) surv = repeat (mk_ibea [v] true) 4).
  { pose proof (Forall_eq_repeat (x := mk_ibea [v] true) (l := map (fun x => nth x (repeat (mk_ibea [v] true) 4) (mk_ibea [] false)) surv)) as G.
    rewrite map_length, Ls in G. apply G. apply Forall_forall. intros x Hx. apply in_map_iff in Hx. destruct Hx as (i & <- & Hi).
    rewrite Forall_forall in Fs. specialize (Fs i Hi). do 4 (destruct i as [|i]; [reflexivity|]). lia. }
  rewrite Ek. split; reflexivity.
Qed.

Theorem C128_ibea_refuted : exists P : params, valid_box (p_dims P) /\ fair_problem (p_dims P) P /\ 1 <= p_m P /\
  forall eps kappa : R, (0 < eps)%R ->
  let Q := {| ip := P; ip_eps := eps; ip_kappa := kappa; ip_fa := None |} in
  exists mating width islands migrants epoch_length pop topology Ds s0 s d ranges x,
    proper_imga (p_dims P) width islands migrants epoch_length pop topology Ds /\ migrants * 4 <= length pop / islands /\
    start_imga (ibea_island_driver P eps kappa mating) topology islands pop = Some s0 /\ run_imga (ibea_island_driver P eps kappa mating) (p_f P) Ds s0 = Some s /\
    In d (imga_drivers s) /\ ibi_ranges Q d = Some ranges /\ x < length (ib_individuals (ibi_state d)) /\
    (scaled eps (fun x => p_f P (ib_vec (ib_individuals (ibi_state d)) x)) ranges 0 x < 0)%R.
Proof.
  exists st_problem. split; [exact hd_valid|]. assert (Fa : fair_problem (p_dims st_problem) st_problem).
  { split; [reflexivity|]. split; [auto|]. split; [reflexivity|]. split; [cbn; lia|]. reflexivity. }
  split; [exact Fa|]. split; [cbn; lia|]. intros eps kappa He Q.
  destruct (C127_ibea st_problem eps kappa (fun n => n) hd_valid Fa (le_n 1) 2 2 1 1 st_population id_topology [st_draws hd_step_draws] (st_proper _)) as (s0 & s & out & E0 & E & _);
    [cbn; lia | intros N k HN Hk; change (length st_population / 2) with 4 in HN; cbn [room] in Hk; lia|].
  assert (X : s0 = {| imga_topology := id_topology; imga_drivers := [ibi_init Q (fun n => n) (repeat [5]%Z 4); ibi_init Q (fun n => n) (repeat [1]%Z 4)]; imga_cost := 0 |}).
  { apply some_inj. rewrite <- E0. reflexivity. }
  pose proof E as Er. rewrite X in E. clear X. unfold run_imga in E. cbn [imga_steps] in E. unfold imga_step in E. cbn [imga_drivers length seq combine map fst snd in_epoch st_draws epoch] in E.
  cbn [ibea_island_driver i_step i_cost i_inds i_set i_value i_admit] in E. change {| ip := st_problem; ip_eps := eps; ip_kappa := kappa; ip_fa := None |} with (st_ibea eps kappa) in E.
  change Q with (st_ibea eps kappa) in E.
  destruct (ibi_step (st_ibea eps kappa) hd_step_draws (ibi_init (st_ibea eps kappa) (fun n => n) (repeat [5]%Z 4))) as [a|] eqn:Ea; [|discriminate].
  apply st_ibea_step in Ea; [|auto]. destruct Ea as (A1 & A2).
  destruct (ibi_step (st_ibea eps kappa) hd_step_draws (ibi_init (st_ibea eps kappa) (fun n => n) (repeat [1]%Z 4))) as [b|] eqn:Eb; [|discriminate].
  apply st_ibea_step in Eb; [|auto]. destruct Eb as (B1 & B2).
  cbn [collect] in E. cbv zeta in E. cbn [map fst snd imga_topology] in E. rewrite A1, B1 in E.
  match type of E with context [migration ?a ?b ?c ?d ?e ?f] => let r := eval vm_compute in (migration a b c d e f) in change (migration a b c d e f) with r in E end.
  cbv iota in E. apply some_inj in E.
  eexists (fun n => n), 2, 2, 1, 1, st_population, id_topology, [st_draws hd_step_draws], s0, s, _, [(5, 5)]%Z, 7.
  split; [apply st_proper|]. split; [cbn; lia|]. split; [exact E0|]. split; [exact Er|]. split; [rewrite <- E; left; reflexivity|].
  split; [unfold ibi_ranges; cbn [fst snd ibi_measured map combine]; rewrite A2; reflexivity|]. split; [cbn; lia|].
  cbn. change (1 - 5)%Z with (-4)%Z. rewrite Rplus_0_l. apply Ropp_lt_cancel. rewrite Ropp_0. unfold Rdiv. rewrite <- Ropp_mult_distr_l_reverse.
  apply Rmult_lt_0_compat; [lra | now apply Rinv_0_lt_compat].
Qed.

(** Still, whatever migration did, IBEA's selection never removes an individual while it keeps one that this one dominates (C78). *)
Theorem C128_ibea_survivors : forall (P : params) (eps kappa : R) (d : ibea_island),
  let Q := {| ip := P; ip_eps := eps; ip_kappa := kappa; ip_fa := None |} in
  let inds := ib_individuals (ibi_state d) in
  1 <= p_m P -> (forall v, length (p_f P v) = p_m P) -> (0 < eps)%R -> (0 <= kappa)%R -> inds <> [] -> ibi_measured d <> [] ->
  exists surv fit, ibi_select Q d = Some (surv, fit) /\ length surv = Nat.min (ib_size (ibi_state d)) (length inds) /\ NoDup surv /\
    (forall s, In s surv -> s < length inds) /\
    forall r s, r < length inds -> ~ In r surv -> In s surv -> ~ pareto_dom (p_f P (ib_vec inds r)) (p_f P (ib_vec inds s)).
Proof.
  intros P eps kappa d Q inds Hm Hf He Hk Hi Hd. unfold ibi_select, ibi_ranges.
  destruct (measured_spec (p_m P) (fun x => p_f P (nth x (ibi_measured d) [])) (seq 0 (length (ibi_measured d)))) as (ranges & Er & HR).
  { destruct (ibi_measured d); [congruence | discriminate]. }
  cbn [Q ip]. rewrite Er. fold inds. clear Er.
  assert (Ne : seq 0 (length inds) <> []) by (destruct inds; [congruence | discriminate]).
  assert (Hle : forall j, j < p_m P -> (fst (nth j ranges (0, 0)) <= snd (nth j ranges (0, 0)))%Z).
  { intros j Hj. eapply range_le; eauto. }
  destruct (select_within_spec (ip_eps Q) (ip_kappa Q) (p_m P) (fun x => p_f P (ib_vec inds x)) ranges (ib_size (ibi_state d)) (seq 0 (length inds)) Hm Ne (seq_NoDup _ _))
    as (surv & fit & rs & I & c & E & _ & _ & _ & L & ND & Inc).
  destruct (select_within_keeps_dominating (ip_eps Q) (ip_kappa Q) (p_m P) (fun x => p_f P (ib_vec inds x)) ranges (ib_size (ibi_state d)) (seq 0 (length inds)) Hm Ne (seq_NoDup _ _))
    as (surv' & fit' & rs' & E' & Pe & HD); [exact He | exact Hk | intros x _; apply Hf | exact Hle|].
  rewrite E in E'. injection E' as <- <- <-. rewrite E. exists surv, fit. split; [reflexivity|]. rewrite seq_length in L. split; [exact L|]. split; [exact ND|].
  split; [intros s Hs; apply Inc, in_seq in Hs; lia|]. intros r s Hr Hn Hs. apply HD; [|exact Hs].
  assert (X : In r (rs ++ surv)) by (apply (Permutation_in _ Pe), in_seq; lia). apply in_app_or in X. tauto.
Qed.

(** And without migration an island's IBEA is IBEA. *)
Theorem C128_ibea_without_migration : forall (P : ibea_params) (D : NsgaModel.step_draws) (d : ibea_island),
  ibi_measured d = map ib_v (ib_individuals (ibi_state d)) ->
  ibi_step P D d = match ibea_step P D (ibi_state d) with
                   | Some s => Some {| ibi_state := s; ibi_measured := map ib_v (ib_individuals s) |}
                   | None => None
                   end.
Proof. exact ibi_step_now. Qed.

Example C128_example :
  let d := {| ibi_state := {| ib_individuals := map (fun x => mk_ibea [x]%Z true) [5; 6; 1]%Z; ib_size := 2; ib_mating := 1; ib_cost := 3; ib_charged := [] |};
              ibi_measured := [[5]; [6]; [7]]%Z |} in
  exists fit, exists surv, ibi_select (st_ibea 1 1) d = Some (surv, fit) /\ In 2 surv.
Proof.
  intros d. destruct (C128_ibea_survivors st_problem 1 1 d) as (surv & fit & E & L & ND & Lt & H); [cbn; lia | reflexivity | lra | lra | discriminate | discriminate|].
  exists fit, surv. split; [exact E|]. destruct (in_dec Nat.eq_dec 2 surv) as [|n]; [assumption|]. exfalso.
  assert (X : exists s, In s surv) by (destruct surv as [|s l]; [discriminate | exists s; now left]). destruct X as (s & Hs).
  refine (H 2 s _ n Hs _); [cbn; lia|]. pose proof (Lt s Hs) as Ls. cbn in Ls.
  destruct s as [|[|[|s]]]; [| | contradiction | lia]; (split; [repeat constructor; cbn; lia|]); exists 0; cbn; do 2 eexists; repeat split; lia.
Qed.

Print Assumptions C127_jgbl. Print Assumptions C127_spea2. Print Assumptions C127_smsemoa. Print Assumptions C127_omopso. Print Assumptions C127_nsgaiii.
Print Assumptions C127_ibea. Print Assumptions C127_nsls_partial. Print Assumptions C127_nsls_refuted. Print Assumptions C127_migrants_arrive.
Print Assumptions C128_nsgaiii_refuted. Print Assumptions C128_ibea_refuted. Print Assumptions C128_ibea_survivors. Print Assumptions C128_ibea_without_migration.
