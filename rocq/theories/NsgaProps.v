(** Property theorems C13-C15: NSGA-II. *)
From Verif Require Import Spec DomModel NDSortModel NDSortProofs VarModel NsgaModel NsgaSpec NsgaProofs CrowdProofs.
From Coq Require Import QArith.
Local Open Scope nat_scope.

(** C13 - for any ranks and any (non-negative) crowding distances. *)
Theorem C13_environmental_selection :
  forall (eps : Q) (rank : nat -> nat) (d : nat -> dist) (size : nat) (inds : list nat),
    (0 < eps)%Q -> (forall x, In x inds -> crowd_nonneg (d x)) ->
    exists dropped,
      Permutation (environmental_selection eps rank d size inds ++ dropped) inds /\
      length (environmental_selection eps rank d size inds) = Nat.min size (length inds) /\
      forall x y, In x (environmental_selection eps rank d size inds) -> In y dropped ->
        rank x < rank y \/ (rank x = rank y /\ crowd_ge (d x) (d y)).
Proof. exact environmental_selection_spec. Qed.
Print Assumptions C13_environmental_selection.

(** The whole pipeline (sorting, crowding, selection) on an evaluated population: nobody kept
    is dominated by somebody dropped. *)
Theorem C13_selection_is_elitist :
  forall (P : params) (s : nstate),
    (forall v, length (p_f P v) = p_m P) -> (0 < p_eps P)%Q ->
    (forall x l, Permutation (p_iter P x l) l) ->
    Forall (fun i => in_box (p_dims P) (iv i) /\ iobj i = Some (p_f P (iv i))) (individuals s) ->
    exists kept fit dropped,
      sort_and_select P s = Some (kept, fit) /\
      Permutation (kept ++ dropped) (seq 0 (length (individuals s))) /\
      length kept = Nat.min (population_size s) (length (individuals s)) /\
      (forall x y, In x kept -> In y dropped ->
         ~ pareto_dom (obj_at (individuals s) y) (obj_at (individuals s) x)).
Proof. exact (fun P s H1 H2 H3 => sort_and_select_ok P H1 H2 H3 s). Qed.
Print Assumptions C13_selection_is_elitist.

Example C13_example :
  environmental_selection (1 # 100) (fun i => nth i [2; 1; 1; 1] 0)
    (fun i => nth i [Inf; Fin 3; Inf; Fin (7 # 2)] Inf) 2 [0; 1; 2; 3] = [2; 3].
Proof. reflexivity. Qed.

(** C14 - [mating] maps the population size to int(mating_population_size * size). *)
Theorem C14_nsga_run :
  forall (P : params) (mating : nat -> nat) (population : list vec) (ops : list op),
    valid_box (p_dims P) ->
    (forall v, in_box (p_dims P) v -> in_box (p_dims P) (p_trim P v)) ->
    (forall v, length (p_f P v) = p_m P) ->
    (0 <= p_epsilon P)%Z -> (0 < p_eps P)%Q ->
    (forall x l, Permutation (p_iter P x l) l) ->
    Forall (in_box (p_dims P)) population -> population <> [] ->
    let N := length population in
    let M := mating N in
    exists s, run_ops P (init P mating None population) ops = Some s /\
      Forall (fun i => in_box (p_dims P) (iv i) /\ iobj i = Some (p_f P (iv i))) (individuals s) /\
      length (individuals s) = match rev ops with Step _ :: _ => N + M | _ => N end /\
      cost s = length (evals s) /\
      cost s = N + steps_in ops * M /\
      exists s' out, finish P s = Some (s', out) /\ length out = N /\
        Forall (in_box (p_dims P)) out /\ cost s' = cost s.
Proof. exact (fun P mating population ops A B C D E F => nsga_run P A B C D E F mating population ops). Qed.
Print Assumptions C14_nsga_run.

(** With a fitness archive [m0] the cost is the number of distinct vectors evaluated, none of
    which the archive held. *)
Theorem C14_nsga_run_with_archive :
  forall (P : params) (mating : nat -> nat) (m0 : list (vec * vec)) (population : list vec) (ops : list op),
    valid_box (p_dims P) ->
    (forall v, in_box (p_dims P) v -> in_box (p_dims P) (p_trim P v)) ->
    (forall v, length (p_f P v) = p_m P) ->
    (0 <= p_epsilon P)%Z -> (0 < p_eps P)%Q ->
    (forall x l, Permutation (p_iter P x l) l) ->
    Forall (in_box (p_dims P)) population -> population <> [] ->
    (forall k o, lookup k m0 = Some o -> o = p_f P k) ->
    exists s m, run_ops P (init P mating (Some m0) population) ops = Some s /\
      Forall (fun i => in_box (p_dims P) (iv i) /\ iobj i = Some (p_f P (iv i))) (individuals s) /\
      cost s = length (evals s) /\
      NoDup (evals s) /\
      (forall v, In v (evals s) -> lookup v m0 = None) /\
      archive s = Some m /\
      (forall v, lookup v m <> None <-> lookup v m0 <> None \/ In v (evals s)) /\
      (forall v o, lookup v m = Some o -> o = p_f P v).
Proof. exact (fun P mating m0 population ops A B C D E F => nsga_run_archive P A B C D E F mating m0 population ops). Qed.
Print Assumptions C14_nsga_run_with_archive.

Definition ex_params : params :=
  {| p_dims := [(0, 10); (0, 10)]%Z; p_f := fun v => [nth 0 v 0; 10 - nth 0 v 0 + nth 1 v 0]%Z; p_m := 2;
     p_trim := fun v => v; p_crossover_rate := 5; p_mutation_rate := 5;
     p_raw := fun lb ub y r => (y + r)%Z;
     p_raw_a := fun lb ub y1 y2 r => (y1 - r)%Z; p_raw_b := fun lb ub y1 y2 r => (y2 + r)%Z;
     p_half := 5; p_epsilon := 0; p_eps := 1 # 1000; p_iter := fun _ l => rev l |}.
Definition ex_draws : step_draws :=
  {| choice := fun k => k; coin := fun _ => true; cx_r0 := fun _ => 0%Z; cx_pick := fun _ => true;
     cx_skip := fun _ _ => 0%Z; cx_rand := fun _ _ => 1%Z; cx_swap := fun _ _ => 0%Z;
     mu_sel := fun i j => Z.of_nat (j * 9); mu_rnd := fun _ _ => 2%Z |}.

Example C14_example :
  (exists s, run_ops ex_params (init ex_params (fun n => n / 2) None [[1; 2]; [3; 4]; [9; 0]; [3; 9]]%Z)
               [Step ex_draws; Finalize; Step ex_draws] = Some s /\
             cost s = 8 /\ length (individuals s) = 6) /\
  valid_box (p_dims ex_params) /\
  Forall (in_box (p_dims ex_params)) [[1; 2]; [3; 4]; [9; 0]; [3; 9]]%Z /\
  (forall x l, Permutation (p_iter ex_params x l) l).
Proof.
  split; [eexists; split; [vm_compute; reflexivity|split; reflexivity]|].
  split; [repeat constructor; simpl; lia|].
  split; [repeat constructor; simpl; lia|].
  intros x l. apply Permutation_sym, Permutation_rev.
Qed.

(** C15 - [m] is the number of objectives, [fronts] any disjoint fronts. *)
Theorem C15_crowding :
  forall (eps : Q) (obj : nat -> vec) (m : nat) (fronts : list (list nat)),
    (0 < eps)%Q -> NoDup (concat fronts) ->
    forall front, In front fronts ->
      let d := crowding eps obj m fronts in
      (forall x, In x front -> crowd_nonneg (d x)) /\
      (2 <= length front ->
         (forall x, In x front -> d x = Inf -> exists j, j < m /\ best_in obj j front x) /\
         (forall j, j < m -> exists x, best_in obj j front x /\ d x = Inf)) /\
      (forall x, front = [x] -> d x = Fin 0).
Proof. exact crowding_ok. Qed.
Print Assumptions C15_crowding.

Example C15_example :
  let d := crowding (1 # 100) (fun i => nth i [[1; 5]; [2; 4]; [4; 1]; [3; 2]; [9; 9]]%Z []) 2
             [[0; 1; 2; 3]; [4]] in
  d 0 = Inf /\ d 2 = Inf /\ (exists q, d 1 = Fin q) /\ (exists q, d 3 = Fin q) /\ d 4 = Fin 0.
Proof. repeat split; eexists; reflexivity. Qed.

(** The distances themselves: for each objective there is a listing of the front from best to worst
    (unique when no two members share a value) such that the members heading a listing have infinite
    distance and everybody else the sum of the shares of the objectives. *)
Theorem C15_crowding_values :
  forall (eps : Q) (obj : nat -> vec) (m : nat) (fronts : list (list nat)),
    NoDup (concat fronts) ->
    forall front, In front fronts -> 2 <= length front ->
    exists orders, length orders = m /\
      (forall j l, nth_error orders j = Some l -> ordered_by obj j front l) /\
      forall x, In x front ->
        ((exists l, In l orders /\ hd_error l = Some x) /\ crowding eps obj m fronts x = Inf) \/
        ((forall l, In l orders -> hd_error l <> Some x) /\
         exists shares, length shares = m /\
           (forall j l s, nth_error orders j = Some l -> nth_error shares j = Some s ->
              crowding_share eps obj j l x s) /\
           crowding eps obj m fronts x = Fin (fold_left Qplus shares 0%Q)).
Proof. exact crowding_exact. Qed.
Print Assumptions C15_crowding_values.

Example C15_values_example :
  let obj := fun i => nth i [[1; 9]; [2; 4]; [6; 1]; [3; 2]; [9; 9]]%Z [] in
  let d := crowding 1 obj 2 [[0; 1; 2; 3]; [4]] in
  (exists q, d 1 = Fin q /\ (q == (3 - 1) / 6 + (9 - 2) / 9)%Q) /\
  (exists q, d 3 = Fin q /\ (q == (6 - 2) / 6 + (4 - 1) / 9)%Q) /\
  ordered_by obj 0 [0; 1; 2; 3] [0; 1; 3; 2] /\
  crowding_share 1 obj 0 [0; 1; 3; 2] 2 (2 * inject_Z (6 - 3) / (inject_Z (6 - 1) + 1))%Q.
Proof.
  split; [eexists; split; reflexivity|]. split; [eexists; split; reflexivity|]. split.
  - split.
    + apply perm_skip, perm_skip. apply perm_swap.
    + repeat constructor; cbn; lia.
  - exact (share_worst 1 _ 0 [0; 1; 3; 2] 2 [0; 1] 3 eq_refl).
Qed.

(** C116 - the mating pool: slot k holds the winner of a tournament between the survivors its two
    draws choose; [coin D k] is true with probability 0.9. *)
Theorem C116_mating_tournament :
  forall (D : step_draws) (eps : Q) (rank : nat -> nat) (d : nat -> dist) (survivors : list nat) (M : nat),
    (0 < eps)%Q -> (forall x, In x survivors -> crowd_nonneg (d x)) -> survivors <> [] ->
    exists pool, mating_selection D (fitness_key eps rank d) survivors M = Some pool /\
      length pool = 2 * M /\
      forall k w, nth_error pool k = Some w ->
        exists x1 x2,
          nth_error survivors (choice D (2 * k) mod length survivors) = Some x1 /\
          nth_error survivors (choice D (2 * k + 1) mod length survivors) = Some x2 /\
          (w = x1 \/ w = x2) /\
          let preferred a b := rank a < rank b \/ (rank a = rank b /\ crowd_ge (d a) (d b)) in
          (coin D k = true -> preferred w x1 /\ preferred w x2) /\
          (coin D k = false -> preferred x1 w /\ preferred x2 w).
Proof. exact mating_selection_spec. Qed.
Print Assumptions C116_mating_tournament.

Example C116_example :
  mating_selection {| choice := fun k => k; coin := fun k => Nat.even k; cx_r0 := fun _ => 0%Z; cx_pick := fun _ => true;
     cx_skip := fun _ _ => 0%Z; cx_rand := fun _ _ => 1%Z; cx_swap := fun _ _ => 0%Z;
     mu_sel := fun i j => 0%Z; mu_rnd := fun _ _ => 2%Z |}
    (fitness_key (1 # 100) (fun i => nth i [2; 1; 1; 1] 0) (fun i => nth i [Inf; Fin 3; Inf; Fin (7 # 2)] Inf))
    [2; 3; 1; 0] 2 = Some [2; 0; 2; 0].
Proof. reflexivity. Qed.
