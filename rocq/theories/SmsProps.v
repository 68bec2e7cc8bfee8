(** Property theorems C35, C36, C81 and the SMS-EMOA part of C32. *)
From Verif Require Import Spec Base HvSpec SmsSpec DomModel VarModel NsgaModel HvModel SpeaModel SmsModel SmsProofs.
Local Open Scope nat_scope.

(** C35 - the population [pop] (with the new individual) loses one member: position [i], which is
    in the last front and whose hypervolume contribution within that front is least.
    [hv_conditions]: the objective vectors have the reference point's dimension, which is at most
    3, or else no two agree in the first objective (the indicator itself can be wrong then, C23). *)
Theorem C35_removes_a_least_contributor_of_the_worst_front :
  forall (neg : Z) (ref : vec) (iter : nat -> list nat -> list nat) (pop : list member),
    (forall x l, Permutation (iter x l) l) -> pop <> [] ->
    hv_conditions neg ref (map m_objectives pop) ->
    exists fronts worst i c,
      reduce_population neg ref iter pop = Some (firstn i pop ++ skipn (S i) pop) /\
      split_into_fronts m_objectives pop (fronts ++ [worst]) /\ In i worst /\
      contribution ref m_objectives pop worst i c /\
      (forall j c', In j worst -> contribution ref m_objectives pop worst j c' -> (c <= c')%Z).
Proof. exact reduce_spec. Qed.
Print Assumptions C35_removes_a_least_contributor_of_the_worst_front.

(** One generation applies this to the population and one new individual. *)
Theorem C35_generation_adds_one_and_removes_one :
  forall (P : params) (neg : Z) (ref : vec) (fa : option (list (vec * vec))) (D : sms_draws) (s s' : sms_state),
    sms_generation P neg ref fa D s = Some s' ->
    exists v o, generate P D (sms_individuals s) = Some v /\
      (o = p_f P v \/ exists m, fa = Some m /\ lookup v m = Some o) /\
      reduce_population neg ref (p_iter P) (sms_individuals s ++ [mk_member v o]) = Some (sms_individuals s').
Proof. exact sms_generation_is. Qed.
Print Assumptions C35_generation_adds_one_and_removes_one.

(** Two fronts; the worst one is {1, 3, 4} and position 4 contributes least to it. *)
Definition sms_ex : list member :=
  [mk_member [0]%Z [1; 1]%Z; mk_member [1]%Z [2; 8]%Z; mk_member [2]%Z [0; 9]%Z; mk_member [3]%Z [8; 2]%Z; mk_member [4]%Z [7; 7]%Z].
Example C35_example :
  hv_conditions (-1000) [10; 10]%Z (map m_objectives sms_ex) /\
  hypervolume_contributions (-1000) [10; 10]%Z (map (objectives_at sms_ex) [1; 3; 4]) = Some [10; 10; 1]%Z /\
  reduce_population (-1000) [10; 10]%Z (fun _ l => rev l) sms_ex = Some (firstn 4 sms_ex).
Proof.
  split; [|split; reflexivity].
  split; [discriminate|]. split; [intros o; cbn; intuition (subst; reflexivity)|].
  split; [left; cbn; lia|]. cbn. lia.
Qed.

(** C36 - [Ds] are the draws of the steps made so far, [Es] of the following ones: the hypervolume
    after the longer run is at least that after the shorter one. *)
Theorem C36_hypervolume_never_decreases :
  forall (P : params) (neg : Z) (ref : vec) (fa : option (list (vec * vec))) (E : nat) (population : list vec)
         (Ds Es : list (nat -> sms_draws)),
    valid_box (p_dims P) -> (forall v, in_box (p_dims P) v -> in_box (p_dims P) (p_trim P v)) ->
    1 <= length ref <= 3 -> (forall v, length (p_f P v) = length ref) ->
    (length ref = 3 -> forall v, Forall2 (fun a r => (neg <= a - r)%Z) (p_f P v) ref) ->
    (0 <= p_epsilon P)%Z -> (forall x l, Permutation (p_iter P x l) l) ->
    (forall m k o, fa = Some m -> lookup k m = Some o -> o = p_f P k) ->
    2 <= length population -> Forall (in_box (p_dims P)) population ->
    Forall (fun D => forall i, i < E -> good_sample (length population) (D i)) (Ds ++ Es) ->
    exists s s', sms_run P neg ref fa E population Ds = Some s /\
      sms_run P neg ref fa E population (Ds ++ Es) = Some s' /\
      exists v v', is_hypervolume ref (map (p_f P) (sms_finalized s)) v /\
        is_hypervolume ref (map (p_f P) (sms_finalized s')) v' /\ (v <= v')%Z.
Proof.
  intros P neg ref fa E population Ds Es H1 H2 H3 H4 H5 H6 H7 H8 H9 H10 HD.
  destruct (sms_run_ok P neg ref fa E population Ds Es H1 H2 H3 H4 H5 H6 H7 H8 H9 H10 HD)
    as (s & s' & R & R' & I & v & v' & Hv & Hv' & L).
  destruct (sms_run_ok P neg ref fa E population (Ds ++ Es) [] H1 H2 H3 H4 H5 H6 H7 H8 H9 H10)
    as (s2 & _ & R2 & _ & I2 & _); [rewrite app_nil_r; exact HD|].
  assert (s2 = s') as -> by congruence.
  assert (G : forall t n, sms_inv P fa (length population) n t ->
            map m_objectives (sms_individuals t) = map (p_f P) (sms_finalized t)).
  { intros t n (_ & F & _). unfold sms_finalized. rewrite map_map. apply map_ext_in. intros m Hm.
    rewrite Forall_forall in F. apply (F m Hm). }
  exists s, s'. split; [exact R|]. split; [exact R'|]. exists v, v'.
  rewrite <- (G _ _ I), <- (G _ _ I2). auto.
Qed.
Print Assumptions C36_hypervolume_never_decreases.

(** C81 - sizes, box and cost over a run. *)
Theorem C81_smsemoa_run :
  forall (P : params) (neg : Z) (ref : vec) (fa : option (list (vec * vec))) (E : nat) (population : list vec)
         (Ds : list (nat -> sms_draws)),
    valid_box (p_dims P) -> (forall v, in_box (p_dims P) v -> in_box (p_dims P) (p_trim P v)) ->
    1 <= length ref <= 3 -> (forall v, length (p_f P v) = length ref) ->
    (length ref = 3 -> forall v, Forall2 (fun a r => (neg <= a - r)%Z) (p_f P v) ref) ->
    (0 <= p_epsilon P)%Z -> (forall x l, Permutation (p_iter P x l) l) ->
    (forall m k o, fa = Some m -> lookup k m = Some o -> o = p_f P k) ->
    2 <= length population -> Forall (in_box (p_dims P)) population ->
    Forall (fun D => forall i, i < E -> good_sample (length population) (D i)) Ds ->
    exists s, sms_run P neg ref fa E population Ds = Some s /\
      length (sms_finalized s) = length population /\ Forall (in_box (p_dims P)) (sms_finalized s) /\
      (fa = None -> sms_cost s = length population + length Ds * E * length population /\
                    length (sms_evals s) = length population + length Ds * E).
Proof.
  intros P neg ref fa E population Ds H1 H2 H3 H4 H5 H6 H7 H8 H9 H10 HD.
  destruct (sms_run_ok P neg ref fa E population Ds [] H1 H2 H3 H4 H5 H6 H7 H8 H9 H10)
    as (s & _ & R & _ & (I1 & I2 & I3) & _); [rewrite app_nil_r; exact HD|].
  exists s. split; [exact R|]. unfold sms_finalized. rewrite map_length. split; [exact I1|].
  split; [|exact I3]. rewrite Forall_map. eapply Forall_impl; [|exact I2]. intros m Hm. apply Hm.
Qed.
Print Assumptions C81_smsemoa_run.

(** A driver and draws that meet the hypotheses of C36 and C81, and two steps of its run. *)
Definition sms_ex_params : params := {|
  p_dims := [(0, 10); (0, 10)]%Z; p_f := fun v => [nth 0 v 0; nth 1 v 0]%Z; p_m := 2; p_trim := fun v => v;
  p_crossover_rate := 100%Z; p_mutation_rate := 0%Z;
  p_raw := fun _ _ y r => (y + r)%Z; p_raw_a := fun _ _ a b r => (a - r)%Z; p_raw_b := fun _ _ a b r => (b + r)%Z;
  p_half := 50%Z; p_epsilon := 0%Z; p_eps := QArith_base.Qmake 1 1; p_iter := fun _ l => l |}.
Definition sms_ex_draws (k : nat) : sms_draws := {|
  sample2 := (0, 1); g_r0 := 1%Z; g_pick := true; g_skip := fun _ => 0%Z; g_rand := fun _ => Z.of_nat (S k);
  g_swap := fun _ => 0%Z; g_sel := fun _ => 1%Z; g_rnd := fun _ => 1%Z |}.
Example C36_example :
  let P := sms_ex_params in let ref := [11; 11]%Z in let population := [[2; 8]; [6; 4]; [7; 7]]%Z in
  valid_box (p_dims P) /\ Forall (in_box (p_dims P)) population /\
  (forall v, length (p_f P v) = length ref) /\
  Forall (fun D => forall i, i < 2 -> good_sample (length population) (D i)) [sms_ex_draws; sms_ex_draws] /\
  (match sms_run P (-1000) ref None 2 population [sms_ex_draws; sms_ex_draws] with
   | Some s => sms_finalized s = [[0; 2]; [0; 2]; [0; 0]]%Z /\ sms_cost s = 15 /\ length (sms_evals s) = 7
   | None => False
   end).
Proof.
  cbv zeta. split; [repeat constructor; cbn; lia|]. split; [repeat constructor; cbn; lia|].
  split; [reflexivity|]. split; [repeat constructor; cbn; lia|]. vm_compute. repeat split; reflexivity.
Qed.

(** C32 (SMS-EMOA) - one call of calculate_objectives when the population has [N] members: the
    vectors evaluated are those the fitness archive does not hold; the charge is decided by the
    last individual and is [N], whatever the number of evaluations. *)
Theorem C32_smsemoa_cost_partial :
  forall (f : vec -> vec) (fa : option (list (vec * vec))) (N : nat) (pop trace : list vec),
    let known v := exists m o, fa = Some m /\ lookup v m = Some o in
    exists evaluated charge,
      snd (sms_objectives f fa N pop trace) = (charge, trace ++ evaluated) /\
      (forall v, In v evaluated <-> In v pop /\ ~ known v) /\
      (fa = None -> evaluated = pop) /\
      (forall p v, pop = p ++ [v] -> known v -> charge = 0) /\
      (forall p v, pop = p ++ [v] -> ~ known v -> charge = N) /\
      ((forall v, In v pop -> ~ known v) -> pop <> [] -> (charge = length evaluated <-> N = length pop)).
Proof. exact sms_round. Qed.
Print Assumptions C32_smsemoa_cost_partial.

Example C32_smsemoa_example :
  snd (sms_objectives (fun v => v) (Some [([1], [1])]%Z) 5 [[1]; [0]; [2]]%Z [[9]]%Z) = (5, [[9]; [0]; [2]]%Z) /\
  snd (sms_objectives (fun v => v) (Some [([1], [1])]%Z) 5 [[0]; [2]; [1]]%Z []) = (0, [[0]; [2]]%Z).
Proof. split; vm_compute; reflexivity. Qed.

(** A generation of a three-member population evaluates one vector and charges three. *)
Theorem C32_smsemoa_cost_refuted :
  exists (P : params) (neg : Z) (ref : vec) (D : sms_draws) (population : list vec) (s : sms_state),
    sms_generation P neg ref None D (sms_init P None population) = Some s /\
    length (sms_evals s) = length (sms_evals (sms_init P None population)) + 1 /\
    sms_cost s = sms_cost (sms_init P None population) + 3 /\ sms_cost s <> length (sms_evals s).
Proof.
  exists sms_ex_params, (-1000)%Z, [11; 11]%Z, (sms_ex_draws 0), [[2; 8]; [6; 4]; [7; 7]]%Z. eexists.
  split; [vm_compute; reflexivity|]. vm_compute. repeat split; lia.
Qed.
Print Assumptions C32_smsemoa_cost_refuted.
