(** Property theorems C117: JGBL, NSGA-II with gene jumping. *)
From Verif Require Import Spec DomModel NDSortModel VarModel VarProofs NsgaModel NsgaSpec NsgaProofs JgblModel JgblSpec JgblProofs NsgaProps.
From Coq Require Import QArith.
Local Open Scope nat_scope.

(** C117 - one step.  [plain] is what NSGA-II's step would leave.  If at most N members of the old
    population and the offspring together are non-dominated among them, that is the result.  Otherwise the
    result is selected from N of these non-dominated members and six new vectors for every one of the N
    whose draw says so, made of it and of non-dominated members that are not among the N. *)
Theorem C117_jgbl_step :
  forall (P : params) (D : step_draws) (J : jump_draws) (s : nstate),
    valid_box (p_dims P) ->
    (forall v, in_box (p_dims P) v -> in_box (p_dims P) (p_trim P v)) ->
    (forall v, length (p_f P v) = p_m P) ->
    (0 <= p_epsilon P)%Z -> (0 < p_eps P)%Q ->
    (forall x l, Permutation (p_iter P x l) l) ->
    jump_ok (p_dims P) J ->
    Forall (fun i => in_box (p_dims P) (iv i) /\ iobj i = Some (p_f P (iv i))) (individuals s) ->
    let N := population_size s in
    1 <= N <= length (individuals s) -> archive s = None -> cost s = length (evals s) ->
    exists plain s', step P D s = Some plain /\ jstep P D J s = Some s' /\
      cost plain = cost s + mating_size s /\
      incl (firstn N (individuals plain)) (individuals s) /\
      exists union front,
        Permutation union (individuals s ++ skipn N (individuals plain)) /\
        pareto_positions (p_f P) union front /\
        (length front <= N -> s' = plain) /\
        (N < length front ->
           length (individuals s') = N /\ cost s' = cost plain + 6 * jumpers J N /\
           Forall (fun i => in_box (p_dims P) (iv i) /\ iobj i = Some (p_f P (iv i))) (individuals s') /\
           exists kept jumped dropped,
             (exists ks ps partners out, Permutation (ks ++ ps) front /\
                at_positions union ks kept /\ at_positions union ps partners /\
                jumped_from J (map iv partners) 0 (map iv kept) out /\
                map iv jumped = map (p_trim P) out) /\
             length kept = N /\ length jumped = 6 * jumpers J N /\
             Permutation (individuals s' ++ dropped) (kept ++ jumped) /\
             (forall x y, In x (individuals s') -> In y dropped -> ~ pareto_dom (p_f P (iv y)) (p_f P (iv x)))).
Proof.
  intros P D J s A B C E F G HJ Hg N [HN HL] Ha Hc.
  destruct (jstep_ok P A B C E F G N (mating_size s) D J s HN) as
    (plain & s' & E1 & E2 & Hi' & Hip & (new & En & H1 & _) & HLp & Hinc & union & front & H2 & H3 & H4 & H5); [|exact HJ|].
  { split; [exact Hg|]. split; [reflexivity|]. split; [reflexivity|]. split; [exact HL|]. split; [|exact Hc].
    intros m k o Em. congruence. }
  destruct (H1 Ha) as [A1 A2]. exists plain, s'. split; [exact E1|]. split; [exact E2|].
  assert (Hcp : cost plain = length (evals plain)) by apply Hip.
  assert (Hcs : cost s' = length (evals s')) by apply Hi'.
  split; [rewrite Hcp, En, app_length; lia|]. split; [exact Hinc|].
  exists union, front. split; [exact H2|]. split; [exact H3|]. split; [exact H4|]. intros Hlt.
  destruct (H5 Hlt) as (L & (new1 & En1 & H6 & _) & R). destruct (H6 A1) as [_ A3].
  split; [exact L|]. split; [rewrite Hcs, En1, app_length; lia|]. split; [apply Hi'|exact R].
Qed.
Print Assumptions C117_jgbl_step.

(** Whole runs: no exception; sizes, cost and box. *)
Theorem C117_jgbl_run :
  forall (P : params) (mating : nat -> nat) (population : list vec) (ops : list jop),
    valid_box (p_dims P) ->
    (forall v, in_box (p_dims P) v -> in_box (p_dims P) (p_trim P v)) ->
    (forall v, length (p_f P v) = p_m P) ->
    (0 <= p_epsilon P)%Z -> (0 < p_eps P)%Q ->
    (forall x l, Permutation (p_iter P x l) l) ->
    Forall (in_box (p_dims P)) population -> population <> [] -> Forall (jop_ok (p_dims P)) ops ->
    let N := length population in
    let M := mating N in
    exists s, run_jops P (init P mating None population) ops = Some s /\
      Forall (fun i => in_box (p_dims P) (iv i) /\ iobj i = Some (p_f P (iv i))) (individuals s) /\
      (length (individuals s) = N \/ length (individuals s) = N + M) /\
      cost s = length (evals s) /\
      N + jsteps_in ops * M <= cost s <= N + jsteps_in ops * (M + 6 * N) /\
      exists s' out, finish P s = Some (s', out) /\ length out = N /\
        Forall (in_box (p_dims P)) out /\ cost s' = cost s.
Proof. exact (fun P mating population ops A B C D E F => jgbl_run P A B C D E F mating population ops). Qed.
Print Assumptions C117_jgbl_run.

Theorem C117_jgbl_run_with_archive :
  forall (P : params) (mating : nat -> nat) (m0 : list (vec * vec)) (population : list vec) (ops : list jop),
    valid_box (p_dims P) ->
    (forall v, in_box (p_dims P) v -> in_box (p_dims P) (p_trim P v)) ->
    (forall v, length (p_f P v) = p_m P) ->
    (0 <= p_epsilon P)%Z -> (0 < p_eps P)%Q ->
    (forall x l, Permutation (p_iter P x l) l) ->
    Forall (in_box (p_dims P)) population -> population <> [] -> Forall (jop_ok (p_dims P)) ops ->
    (forall k o, lookup k m0 = Some o -> o = p_f P k) ->
    exists s m, run_jops P (init P mating (Some m0) population) ops = Some s /\
      Forall (fun i => in_box (p_dims P) (iv i) /\ iobj i = Some (p_f P (iv i))) (individuals s) /\
      cost s = length (evals s) /\
      NoDup (evals s) /\
      (forall v, In v (evals s) -> lookup v m0 = None) /\
      archive s = Some m /\
      (forall v, lookup v m <> None <-> lookup v m0 <> None \/ In v (evals s)) /\
      (forall v o, lookup v m = Some o -> o = p_f P v).
Proof. exact (fun P mating m0 population ops A B C D E F => jgbl_run_archive P A B C D E F mating m0 population ops). Qed.
Print Assumptions C117_jgbl_run_with_archive.

(** Four non-dominated individuals for two places: a jump takes place. *)
Definition ex_jump : jump_draws :=
  {| j_union := fun l => rev l; j_union2 := fun l => l; j_jumps := fun i => i =? 1; j_choice := fun k => k;
     j_cut := fun _ x y => (y, x); j_copy := fun _ x y => (x, y) |}.
Definition ex_jparams : params :=
  {| p_dims := [(0, 10); (0, 10)]%Z; p_f := fun v => [nth 0 v 0; 10 - nth 0 v 0]%Z; p_m := 2;
     p_trim := fun v => v; p_crossover_rate := 5; p_mutation_rate := 5;
     p_raw := fun lb ub y r => (y + r)%Z;
     p_raw_a := fun lb ub y1 y2 r => (y1 - r)%Z; p_raw_b := fun lb ub y1 y2 r => (y2 + r)%Z;
     p_half := 5; p_epsilon := 0; p_eps := 1 # 1000; p_iter := fun _ l => rev l |}.

Example C117_example :
  (exists s, run_jops ex_jparams (init ex_jparams (fun n => n / 2) None [[1; 2]; [9; 0]; [3; 9]]%Z)
               [JStep ex_draws ex_jump; JStep ex_draws ex_jump] = Some s /\
             cost s = 3 + 2 * (1 + 6) /\ length (individuals s) = 3) /\
  (exists s, run_jops ex_params (init ex_params (fun n => n / 2) None [[1; 2]; [3; 4]; [9; 0]; [3; 9]]%Z)
               [JStep ex_draws ex_jump; JFinalize; JStep ex_draws ex_jump] = Some s /\
             cost s = 4 + 2 + 2 + 6 /\ length (individuals s) = 4) /\
  jump_ok (p_dims ex_jparams) ex_jump.
Proof.
  split; [eexists; split; [vm_compute; reflexivity|split; reflexivity]|].
  split; [eexists; split; [vm_compute; reflexivity|split; reflexivity]|].
  split; [intros l; apply Permutation_sym, Permutation_rev|]. split; [intros l; apply Permutation_refl|].
  intros k x y Hx Hy. cbn. auto.
Qed.
