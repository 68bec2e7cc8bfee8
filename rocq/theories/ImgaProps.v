(** Properties C45-C49, C89, C90: the island model. *)
From Verif Require Import Spec Base VarModel DomModel NsgaModel NsgaSpec NsgaProofs ImgaSpec ImgaModel ImgaProofs TorusProofs ImgaRunModel ImgaRunProofs NsgaProps.
From Coq Require Import QArith Lqa.
Local Open Scope nat_scope.

(** C45 *)
Theorem C45_islands_partition {A} (n : nat) (population : list A) : 1 <= n ->
  exists islands, create_islands n population = Some islands /\ length islands = n /\
    Permutation (concat islands) population /\
    (forall i j a b, nth_error islands i = Some a -> nth_error islands j = Some b -> length a <= length b + 1) /\
    (forall i a, nth_error islands i = Some a -> length a = length population / n + (if i <? length population mod n then 1 else 0)).
Proof.
  intros Hn. destruct (islands_partition n population Hn) as (islands & E & L & P & S). exists islands. split; [exact E|]. split; [exact L|]. split; [exact P|]. split; [|exact S].
  intros i j a b Ha Hb. rewrite (S i a Ha), (S j b Hb). destruct (i <? _), (j <? _); lia.
Qed.
Print Assumptions C45_islands_partition.
Example C45_example : create_islands 3 [10; 11; 12; 13; 14; 15; 16; 17] = Some [[10; 11; 16]; [12; 13; 17]; [14; 15]].
Proof. reflexivity. Qed.

(** C46 *)
Theorem C46_torus_is_valid (width size : nat) : 1 <= width ->
  exists t, torus width size = Some t /\ valid_topology size t.
Proof. apply torus_valid. Qed.
Print Assumptions C46_torus_is_valid.
Example C46_example : option_map (map (nodup Nat.eq_dec)) (torus 3 7) = Some [[2; 1; 3; 6]; [0; 2; 4]; [1; 0; 5]; [5; 4; 0; 6]; [3; 5; 1]; [4; 3; 2]; [0; 3]].
Proof. reflexivity. Qed.

(** C89: the neighbours are exactly those of a torus with rows of [width] islands, except one missing pair
    when there is one full row and part of a second one. *)
Theorem C89_torus_neighbours_partial (width size : nat) t : 1 <= width -> torus width size = Some t ->
  (forall i j, i < size -> j < size -> i <> j ->
     ~ (width < size < 2 * width /\ ((i = 0 /\ j = width) \/ (i = width /\ j = 0))) ->
     (neighbour t i j <-> torus_adjacent width size i j)) /\
  ((size = width + 1 -> width = 1) -> forall i j, i < size -> j < size -> linked t i j).
Proof.
  intros Hw Et. split; [|now apply torus_connected].
  intros i j Hi Hj Ne M. rewrite (torus_exact width size t Hw Et i j Hi Hj Ne). unfold missing_link. tauto.
Qed.
Print Assumptions C89_torus_neighbours_partial.
(** The missing pair. *)
Theorem C89_torus_misses_a_link_refuted (width size : nat) : width < size < 2 * width ->
  exists t, torus width size = Some t /\ torus_adjacent width size 0 width /\ ~ neighbour t 0 width.
Proof.
  intros H. destruct (torus_valid width size ltac:(lia)) as (t & Et & _). exists t. split; [exact Et|].
  assert (ER : size / width = 1) by (symmetry; apply (Nat.div_unique size width 1 (size - width)); lia).
  assert (EL : size mod width = size - width) by (symmetry; apply (Nat.mod_unique size width 1 (size - width)); lia).
  split.
  - right. rewrite Nat.mod_0_l, Nat.mod_same, Nat.div_0_l, Nat.div_same by lia. split; [reflexivity|]. unfold column_height. rewrite ER, EL.
    rewrite (proj2 (Nat.ltb_lt 0 (size - width))) by lia. split; [lia | left; reflexivity].
  - intros N. apply (torus_exact width size t ltac:(lia) Et 0 width) in N; [|lia|lia|lia]. apply (proj2 N). split; [exact H|]. left. lia.
Qed.
Print Assumptions C89_torus_misses_a_link_refuted.
(** An island with no neighbour at all. *)
Theorem C89_torus_connected_refuted (width : nat) : 2 <= width ->
  exists t, torus width (width + 1) = Some t /\ forall j, ~ neighbour t width j.
Proof.
  intros H. destruct (torus_valid width (width + 1) ltac:(lia)) as (t & Et & _). exists t. split; [exact Et|]. now apply (torus_isolated width t H Et).
Qed.
Print Assumptions C89_torus_connected_refuted.
Example C89_example : torus 4 5 = Some [[3; 1; 0; 0]; [0; 2; 1; 1]; [1; 3; 2; 2]; [2; 0; 3; 3]; []] /\ 4 < 5 < 2 * 4.
Proof. split; [reflexivity | lia]. Qed.
Example C89_example_adjacent : torus_adjacent 3 7 0 6 /\ torus_adjacent 3 7 1 4 /\ ~ torus_adjacent 3 7 1 3.
Proof.
  unfold torus_adjacent, ring_adjacent. cbn. split; [right; split; [reflexivity|]; split; [lia | right; reflexivity]|]. split; [right; split; [reflexivity|]; split; [lia | left; reflexivity]|].
  intros [(H & _)|(H & _)]; discriminate.
Qed.

(** C47: migration on a symmetric topology. *)
Section Migration.
  (** the individuals of the islands' driver, their vectors, and what an island does to a newcomer (only OMOPSO does anything) *)
  Variable ind : Type.
  Variable value : ind -> vec.
  Variable admit : ind -> ind.
  Variable f : vec -> vec.
  Variable d : nat.
  Hypothesis f_dim : forall v, length (f v) = d.
  (** migrants_number, and the draws of every call of emigrate() *)
  Variable m : nat.
  Variable draws : nat -> nat -> list (Q * nat).
  Hypothesis draws_ok : forall i n, Forall draw_ok (draws i n) /\ length (draws i n) = m.
  (** the topology: one set per island, in iteration order *)
  Variable topo : list (list nat).
  Hypothesis topo_sets : Forall (@NoDup nat) topo.
  Variable islands : list (island ind).
  Hypothesis ready : Forall (fun s => visa_office s = [] /\ all_refugees s = []) islands.
  Hypothesis enough : forall i s, nth_error islands i = Some s -> m * length (nth i topo []) <= length (isl_inds s).

  Lemma enough' : forall i s, nth_error islands i = Some s -> visa_office s = [] /\ all_refugees s = [] /\ m * length (nth i topo []) <= length (isl_inds s).
  Proof. intros i s H. rewrite Forall_forall in ready. destruct (ready s (nth_error_In _ _ H)). auto. Qed.

  Theorem C47_migration_conserves : valid_topology (length islands) topo ->
    exists islands', migration value admit f topo draws islands = Some islands' /\
      (exists stay go, Permutation (concat (map isl_inds islands)) (stay ++ go) /\
                       Permutation (concat (map isl_inds islands')) (stay ++ map admit go)) /\
      map (fun s => length (isl_inds s)) islands' = map (fun s => length (isl_inds s)) islands /\
      Forall (fun s => visa_office s = [] /\ all_refugees s = []) islands'.
  Proof.
    intros (L & V2 & V3).
    destruct (migration_balanced value admit f d f_dim m draws draws_ok topo topo_sets islands L V2 enough') as (sent & kept & islands' & Em & Li & _ & Each & Perm).
    - intros k Hk. symmetry. apply Permutation_length. apply degrees; [exact topo_sets | | lia]. split; [reflexivity|]. split; [intros i j; rewrite L; apply V2 | exact V3].
    - exists islands'. split; [exact Em|]. split; [exact Perm|]. split.
      + apply nth_error_same. intros k. rewrite !nth_error_map. destruct (nth_error islands k) as [s|] eqn:Es.
        * destruct (Each k s Es) as (s' & -> & _ & _ & H & _). cbn. now rewrite H.
        * apply nth_error_None in Es. rewrite (proj2 (nth_error_None islands' k)) by lia. reflexivity.
      + apply Forall_forall. intros s' Hs'. apply In_nth_error in Hs'. destruct Hs' as (k & Hk).
        destruct (nth_error islands k) as [s|] eqn:Es; [|apply nth_error_None in Es; assert (k < length islands') by (apply nth_error_Some; congruence); lia].
        destruct (Each k s Es) as (s1 & H1 & H2 & H3 & _). rewrite Hk in H1. injection H1 as <-. auto.
  Qed.

  (** Where admission leaves the vectors alone (every driver), migration only moves vectors about. *)
  Corollary C47_vectors_conserved : valid_topology (length islands) topo -> (forall x, value (admit x) = value x) ->
    exists islands', migration value admit f topo draws islands = Some islands' /\
      Permutation (map value (concat (map isl_inds islands'))) (map value (concat (map isl_inds islands))).
  Proof.
    intros V Ha. destruct (C47_migration_conserves V) as (islands' & Em & (stay & go & P1 & P2) & _). exists islands'. split; [exact Em|].
    rewrite P2, P1, !map_app, map_map. apply Permutation_app_head. erewrite map_ext; [reflexivity|]. intros x. apply Ha.
  Qed.

  (** Who goes where: each island sends [m] individuals to each neighbour and keeps the others. *)
  Theorem C47_migration_exchanges : valid_topology (length islands) topo ->
    exists (sent : nat -> nat -> list ind) (kept : nat -> list ind) islands', migration value admit f topo draws islands = Some islands' /\
      (forall i j, neighbour topo i j -> length (sent i j) = m) /\
      (forall k s, nth_error islands k = Some s ->
         Permutation (isl_inds s) (kept k ++ concat (map (sent k) (nth k topo []))) /\
         exists s', nth_error islands' k = Some s' /\ isl_inds s' = kept k ++ map admit (concat (map (fun i => sent i k) (senders topo k)))).
  Proof.
    intros (L & V2 & V3).
    destruct (migration_balanced value admit f d f_dim m draws draws_ok topo topo_sets islands L V2 enough') as (sent & kept & islands' & Em & Li & S0 & Each & Perm).
    - intros k Hk. symmetry. apply Permutation_length. apply degrees; [exact topo_sets | | lia]. split; [reflexivity|]. split; [intros i j; rewrite L; apply V2 | exact V3].
    - exists sent, kept, islands'. split; [exact Em|]. split.
      + intros i j (l & El & Hj). apply S0; [rewrite <- L; apply nth_error_Some; congruence | now rewrite (nth_error_nth _ _ [] El)].
      + intros k s Hs. destruct (Each k s Hs) as (s' & H1 & _ & _ & _ & H2 & H3). split; [exact H2|]. exists s'. auto.
  Qed.

  (** Without symmetry: one island with as many senders as neighbours fewer or more makes the migration raise. *)
  Theorem C47_unbalanced_raises k : length topo = length islands -> (forall i j, neighbour topo i j -> j < length islands) ->
    1 <= m -> k < length islands -> length (senders topo k) <> length (nth k topo []) -> migration value admit f topo draws islands = None.
  Proof. intros L V2. now apply (migration_unbalanced value admit f d f_dim m draws draws_ok topo topo_sets islands L V2 enough'). Qed.
End Migration.
Print Assumptions C47_migration_conserves.
Print Assumptions C47_vectors_conserved.
Print Assumptions C47_migration_exchanges.
Print Assumptions C47_unbalanced_raises.

Definition c47_ind (x y : Z) : indiv := mk_indiv [x; y]%Z None.
Definition c47_islands : list (island indiv) :=
  map (fun l => {| isl_inds := l; visa_office := []; all_refugees := [] |})
    [[c47_ind 1 5; c47_ind 2 2; c47_ind 3 3]; [c47_ind 4 4; c47_ind 5 1; c47_ind 9 9]; [c47_ind 7 7; c47_ind 6 8; c47_ind 0 9]].
Definition c47_draws (i n : nat) : list (Q * nat) := [((1 # 4)%Q, i + n)].
Example C47_example : option_map (map (fun s => map iv (isl_inds s))) (migration iv (fun i => i) (fun v => v) [[1; 2]; [0; 2]; [0; 1]] c47_draws c47_islands) =
    Some [[[3; 3]; [5; 1]; [0; 9]]; [[9; 9]; [2; 2]; [6; 8]]; [[7; 7]; [1; 5]; [4; 4]]]%Z /\
  valid_topology 3 [[1; 2]; [0; 2]; [0; 1]] /\ migration iv (fun i => i) (fun v => v) [[1]; [2]; []] c47_draws c47_islands = None.
Proof.
  split; [vm_compute; reflexivity|]. split; [|vm_compute; reflexivity].
  split; [reflexivity|]. split; intros i j (l & E & H).
  - destruct i as [|[|[|i]]]; cbn in E; [| | |destruct i; discriminate]; injection E as <-; cbn in H; lia.
  - destruct i as [|[|[|i]]]; cbn in E; [| | |destruct i; discriminate]; injection E as <-; destruct H as [<-|[<-|[]]]; eexists; (split; [reflexivity|]); cbn; auto.
Qed.

(** C48 *)
Definition before (k : nat) (weights : list Q) : Q := fold_right Qplus 0%Q (firstn k weights).

Definition total (weights : list Q) : Q := fold_right Qplus 0%Q weights.

Lemma before_S {A} (choices : list (A * Q)) k c w : nth_error choices k = Some (c, w) ->
  (qsum (map snd (firstn (S k) choices)) == qsum (map snd (firstn k choices)) + w)%Q.
Proof.
  revert k. induction choices as [|(c0, w0) l IH]; intros [|k] H; cbn [nth_error] in H; try discriminate.
  - injection H as -> ->. cbn. ring.
  - cbn [firstn map snd]. change (w0 + qsum (map snd (firstn (S k) l)) == w0 + qsum (map snd (firstn k l)) + w)%Q. rewrite (IH k H). ring.
Qed.
Lemma before_qsum {A} (choices : list (A * Q)) k : before k (map snd choices) = qsum (map snd (firstn k choices)).
Proof. unfold before, qsum. now rewrite firstn_map. Qed.

(** The chosen item is the one whose interval of cumulative weights contains the draw; its weight is
    positive; the assertion fires exactly when the draw is not below the total. *)
Theorem C48_weighted_choice {A} (choices : list (A * Q)) (r : Q) :
  Forall (fun cw => (0 <= snd cw)%Q) choices -> (0 <= r)%Q ->
  (forall c, weighted_choice r choices = Some c <->
     exists k w, nth_error choices k = Some (c, w) /\ (before k (map snd choices) <= r)%Q /\ (r < before k (map snd choices) + w)%Q) /\
  (forall c, weighted_choice r choices = Some c -> exists w, In (c, w) choices /\ (0 < w)%Q) /\
  (weighted_choice r choices = None <-> (total (map snd choices) <= r)%Q).
Proof.
  intros Hw Hr.
  assert (Fwd : forall c, weighted_choice r choices = Some c -> exists k w, nth_error choices k = Some (c, w) /\ (before k (map snd choices) <= r)%Q /\ (r < before k (map snd choices) + w)%Q).
  { intros c H. unfold weighted_choice in H. pose proof (choice_loop_spec r choices 0%Q Hr) as SP. rewrite H in SP. destruct SP as (k & w & Hk & H1 & H2).
    exists k, w. split; [exact Hk|]. rewrite (before_S choices k c w Hk) in H2. rewrite before_qsum. lra. }
  split; [|split].
  - intros c. split; [apply Fwd|]. intros (k & w & Hk & H1 & H2). eapply weighted_choice_at; [exact Hw | exact Hk|]. rewrite (before_S choices k c w Hk). rewrite before_qsum in *. lra.
  - intros c H. destruct (Fwd c H) as (k & w & Hk & H1 & H2). exists w. split; [exact (nth_error_In _ _ Hk) | lra].
  - split.
    + intros H. unfold weighted_choice in H. pose proof (choice_loop_spec r choices 0%Q Hr) as SP. rewrite H in SP. unfold total. unfold qsum in SP. lra.
    + intros H. destruct (weighted_choice r choices) as [c|] eqn:E; [|reflexivity]. destruct (Fwd c eq_refl) as (k & w & Hk & H1 & H2).
      exfalso. pose proof (cumulative_mono choices (S k) (length choices) Hw) as M. rewrite firstn_all in M.
      assert (K : S k <= length choices) by (apply nth_error_Some; congruence). specialize (M K). rewrite (before_S choices k c w Hk) in M. rewrite before_qsum in H2. unfold total in H. unfold qsum in *. lra.
Qed.
Print Assumptions C48_weighted_choice.
Definition c48_choices : list (nat * Q) := [(7, 1%Q); (8, 0%Q); (9, (1 # 2)%Q); (10, 1%Q)].
Example C48_example : weighted_choice (3 # 2) c48_choices = Some 10 /\ weighted_choice 1 c48_choices = Some 9 /\ weighted_choice (5 # 2) c48_choices = None.
Proof. repeat split; reflexivity. Qed.

(** C49: for every driver whose cost is not changed by exchanging individuals. *)
Section Cost.
  Variables drv draw ind : Type.
  Variable value : ind -> vec.
  Variable admit : ind -> ind.
  Variable dstep : draw -> drv -> option drv.
  Variable dcost : drv -> nat.
  Variable dinds : drv -> list ind.
  Variable dset : drv -> list ind -> drv.
  Variable f : vec -> vec.
  Hypothesis dset_cost : forall d l, dcost (dset d l) = dcost d.

  Theorem C49_cost_is_the_sum (Ds : list (imga_draws draw)) s s' :
    imga_steps drv draw ind value admit dstep dcost dinds dset f Ds s = Some s' -> Ds <> [] ->
    Forall (fun D => Permutation (completion D) (seq 0 (length (imga_drivers s)))) Ds ->
    imga_cost s' = list_sum (map dcost (imga_drivers s')).
  Proof. intros H1 H2 H3. now apply (steps_cost drv draw ind value admit dstep dcost dinds dset f dset_cost Ds s s'). Qed.

  (** Runs that differ only in the order in which the islands complete their epochs end alike. *)
  Theorem C49_any_schedule (Ds Ds' : list (imga_draws draw)) s :
    Forall2 (fun D D' => in_epoch D = in_epoch D' /\ in_migration D = in_migration D' /\ Permutation (completion D) (completion D')) Ds Ds' ->
    imga_steps drv draw ind value admit dstep dcost dinds dset f Ds s = imga_steps drv draw ind value admit dstep dcost dinds dset f Ds' s.
  Proof.
    intros H. revert s. induction H as [|D D' Ds Ds' (H1 & H2 & H3) _ IH]; intros s; [reflexivity|]. cbn.
    rewrite (step_order drv draw ind value admit dstep dcost dinds dset f D D' s H1 H2 H3). destruct (imga_step _ _ _ _ _ _ _ _ _ _ D' s); auto.
  Qed.

  (** If an island's cost never decreases, neither does the reported cost: after any step, all later ones. *)
  Theorem C49_cost_never_decreases D (Ds : list (imga_draws draw)) s s1 s2 :
    (forall d x x', dstep d x = Some x' -> dcost x <= dcost x') ->
    imga_step drv draw ind value admit dstep dcost dinds dset f D s = Some s1 ->
    imga_steps drv draw ind value admit dstep dcost dinds dset f Ds s1 = Some s2 ->
    Forall (fun D => Permutation (completion D) (seq 0 (length (imga_drivers s)))) (D :: Ds) ->
    imga_cost s1 <= imga_cost s2.
  Proof.
    intros Hm H1 H2 HF. inversion HF; subst. destruct (step_cost drv draw ind value admit dstep dcost dinds dset f dset_cost D s s1 H1) as (C1 & L1); [assumption|].
    destruct Ds as [|D2 Ds]; [cbn in H2; injection H2 as <-; lia|].
    rewrite C1. rewrite (steps_cost drv draw ind value admit dstep dcost dinds dset f dset_cost (D2 :: Ds) s1 s2 H2); [|rewrite L1; assumption | discriminate].
    eapply (steps_mono drv draw ind value admit dstep dcost dinds dset f dset_cost (D2 :: Ds) Hm); exact H2.
  Qed.
End Cost.
Print Assumptions C49_cost_is_the_sum.
Print Assumptions C49_any_schedule.
Print Assumptions C49_cost_never_decreases.

(** C90: IMGA over NSGA-II on a torus. *)
(** A step is one epoch on every island followed by one migration (C47) between the islands as the epochs
    leave them. *)
Theorem C90_step_is_epochs_then_migration (P : params) D s s' : nsga_imga_step P D s = Some s' ->
  exists after : list nstate,
    length after = length (imga_drivers s) /\
    (forall k d, nth_error (imga_drivers s) k = Some d -> exists d', nth_error after k = Some d' /\ run_ops P d (map Step (in_epoch D k)) = Some d') /\
    exists islands, migration iv (fun i => i) (p_f P) (imga_topology s) (in_migration D)
        (map (fun d => {| isl_inds := individuals d; visa_office := []; all_refugees := [] |}) after) = Some islands /\
      map individuals (imga_drivers s') = map isl_inds islands /\
      map cost (imga_drivers s') = map cost after /\ map evals (imga_drivers s') = map evals after.
Proof. apply nsga_step_parts. Qed.
Print Assumptions C90_step_is_epochs_then_migration.

Section Whole.
  Variable P : params.
  Hypothesis Hbox : valid_box (p_dims P).
  Hypothesis Htrim : forall v, in_box (p_dims P) v -> in_box (p_dims P) (p_trim P v).
  Hypothesis Hf : forall v, length (p_f P v) = p_m P.
  Hypothesis Hepsilon : (0 <= p_epsilon P)%Z.
  Hypothesis Heps : (0 < p_eps P)%Q.
  Hypothesis Hiter : forall x l, Permutation (p_iter P x l) l.

  Theorem C90_imga_run (mating : nat -> nat) width islands_number population t topo m E Ds :
    Forall (in_box (p_dims P)) population -> 1 <= width -> 1 <= islands_number <= length population -> 1 <= E ->
    torus width islands_number = Some t -> same_sets t topo ->
    (** room for the emigrants: four neighbours at most *)
    (forall N, length population / islands_number <= N <= length population / islands_number + 1 -> m * 4 <= N + mating N) ->
    Forall (fun D => (forall k, length (in_epoch D k) = E) /\ Permutation (completion D) (seq 0 islands_number) /\
                     (forall i j, Forall draw_ok (in_migration D i j) /\ length (in_migration D i j) = m)) Ds ->
    exists s0 s out sizes, nsga_imga_init P mating topo islands_number population = Some s0 /\ nsga_imga_steps P Ds s0 = Some s /\
      nsga_imga_final P s = Some out /\
      length out = length population /\ Forall (in_box (p_dims P)) out /\
      list_sum sizes = length population /\
      Forall2 (fun N d => population_size d = N /\ (Ds <> [] -> length (individuals d) = N + mating N) /\
                          Forall (fun i => in_box (p_dims P) (iv i) /\ iobj i = Some (p_f P (iv i))) (individuals d)) sizes (imga_drivers s) /\
      imga_cost s = (if length Ds =? 0 then 0 else length population + length Ds * E * list_sum (map mating sizes)).
  Proof.
    intros HB Hw Hn HE Et HS Hroom HD.
    assert (Div : 1 <= length population / islands_number) by (apply Nat.div_le_lower_bound; lia).
    destruct (torus_run nstate step_draws indiv iv (fun i => i) (step P) cost individuals with_individuals (finish P) (fun a => Some (init P mating None a)) (p_f P) (p_m P) Hf (fun d l => eq_refl)
      width islands_number m E population t topo Hw Hn HE Et HS
      (nsga_island P mating) (good P) (in_box (p_dims P)) (fun _ N out => length out = N /\ Forall (in_box (p_dims P)) out) HB) with (Ds := Ds)
      as (s0 & s & outs & sizes & E0 & E1 & E2 & Sum & Sz & HI & HO & HC).
    - intros a Ha _. eexists. split; [reflexivity|]. now apply nsga_island_init.
    - intros T N x d HN HI. apply nsga_island_step; auto; lia.
    - intros T N d HN HT (_ & _ & _ & L). rewrite L by exact HT. now apply Hroom.
    - intros T N d ((G & _) & _). exact G.
    - auto.
    - intros T N d l _ _. apply nsga_island_set.
    - intros T N d HN (I & _). destruct (finish_ok P Hf Heps Hiter N (mating N) d I) as (s' & out & Ef & _ & _ & Lo & Bo & _). exists s', out. auto.
    - exact HD.
    - exists s0, s, (concat outs), sizes. split; [exact E0|]. split; [exact E1|]. split; [exact E2|].
      assert (HL : length (concat outs) = list_sum sizes /\ Forall (in_box (p_dims P)) (concat outs)).
      { clear -HO. induction HO as [|N o szs os (L & B) _ (IH1 & IH2)]; [split; [reflexivity | constructor]|]. cbn [concat]. rewrite app_length, L, IH1. split; [reflexivity | apply Forall_app; auto]. }
      destruct HL as (HL & HB'). split; [congruence|]. split; [exact HB'|]. split; [exact Sum|]. split.
      + clear -HI HE. induction HI as [|N d szs l ((G & S0 & _) & _ & _ & L) _ IH]; constructor; [|exact IH]. split; [exact S0|]. split; [|exact G].
        intros Ne. apply L. destruct Ds; [congruence | cbn; lia].
      + rewrite HC. destruct Ds as [|D Ds]; [reflexivity|]. change (length (D :: Ds) =? 0) with false. cbv iota. rewrite <- Sum.
        clear -HI. induction HI as [|N d szs drivers (_ & _ & C & _) _ IH]; [cbn; lia|]. cbn [map]. change (list_sum (?a :: ?b)) with (a + list_sum b). rewrite IH, C. nia.
  Qed.
End Whole.
Print Assumptions C90_imga_run.

Definition c90_population : list vec := [[1; 2]; [3; 4]; [9; 0]; [3; 9]; [2; 2]; [0; 7]; [6; 1]; [8; 8]; [5; 5]]%Z.
Definition c90_draws (order : list nat) : imga_draws step_draws :=
  {| in_epoch := fun _ => [ex_draws; ex_draws]; completion := order; in_migration := fun i j => [((1 # 3)%Q, i + 2 * j)] |}.
Example C90_example :
  same_sets [[1; 1; 0; 0]; [0; 0; 1; 1]] [[1; 0]; [0; 1]] /\ torus 2 2 = Some [[1; 1; 0; 0]; [0; 0; 1; 1]] /\
  match nsga_imga_init ex_params (fun n => n / 2) [[1; 0]; [0; 1]] 2 c90_population with
  | Some s0 => match nsga_imga_steps ex_params [c90_draws [1; 0]; c90_draws [0; 1]; c90_draws [1; 0]] s0 with
               | Some s => imga_cost s = 9 + 3 * 2 * (2 + 2) /\ map (fun d => length (individuals d)) (imga_drivers s) = [5 + 2; 4 + 2]
               | None => False
               end
  | None => False
  end.
Proof.
  split.
  { constructor; [|constructor; [|constructor]]; (split; [constructor; [cbn; intuition congruence | constructor; [intros [] | constructor]] | intros x; cbn; tauto]). }
  split; [reflexivity|]. vm_compute. split; reflexivity.
Qed.
