(** Property theorems C30-C32 and C75-C77: SPEA2. *)
From Verif Require Import Spec MetSpec SpeaSpec DomModel VarModel NsgaModel DomProofs MetModel SpeaModel SpeaProofs SpeaThin.
From Coq Require Import Reals Lra.
Local Open Scope nat_scope.

(** C30 - [union] is archive + population; entry i of [fits] is the fitness of member i. *)
Theorem C30_fitness_separates_nondominated :
  forall (union : list member) (d : nat),
    2 <= length union -> all_dim d m_objectives union ->
    exists fits, calculate_fitnesses union = Some fits /\ length fits = length union /\
      forall i r, nth_error fits i = Some r -> ((r <= 1)%R <-> nondominated_at m_objectives union i).
Proof. exact fitness_separates. Qed.
Print Assumptions C30_fitness_separates_nondominated.

(** A lone individual makes the density computation raise IndexError. *)
Theorem C30_single_individual_raises :
  forall m : member, calculate_fitnesses [m] = None.
Proof. intros m. reflexivity. Qed.
Print Assumptions C30_single_individual_raises.

(** Three mutually non-dominated members and one dominated. *)
Definition ex_union : list member :=
  [mk_member [1]%Z [0; 10]%Z; mk_member [2]%Z [1; 9]%Z; mk_member [3]%Z [10; 0]%Z; mk_member [4]%Z [11; 3]%Z].
Example C30_example : 2 <= length ex_union /\ all_dim 2 m_objectives ex_union /\
  map (raw_fitness ex_union) (seq 0 4) = [0; 0; 0; 1].
Proof.
  split; [cbn; lia|]. split; [|reflexivity].
  intros x [<-|[<-|[<-|[<-|[]]]]]; reflexivity.
Qed.

(** C75 - a dominating individual has the smaller (better) fitness. *)
Theorem C75_fitness_respects_dominance :
  forall (union : list member) (d : nat),
    2 <= length union -> all_dim d m_objectives union ->
    exists fits, calculate_fitnesses union = Some fits /\
      forall i j x y r s, nth_error union i = Some x -> nth_error union j = Some y ->
        nth_error fits i = Some r -> nth_error fits j = Some s ->
        pareto_dom (m_objectives x) (m_objectives y) -> (r < s)%R.
Proof. exact fitness_respects_dominance. Qed.
Print Assumptions C75_fitness_respects_dominance.

(** In [ex_union] the third member dominates the fourth. *)
Example C75_example : exists r s, match calculate_fitnesses ex_union with
  | Some fits => nth_error fits 2 = Some r /\ nth_error fits 3 = Some s
  | None => False end /\ (r < s)%R.
Proof.
  destruct C30_example as (H1 & H2 & _). destruct (fitness_respects_dominance ex_union 2 H1 H2) as (fits & E & H).
  destruct (fitness_separates ex_union 2 H1 H2) as (fits' & E' & L & _). rewrite E in E'. injection E' as <-. rewrite E. cbn in L.
  destruct fits as [|a [|b [|c [|d [|? ?]]]]]; try discriminate. exists c, d. split; [split; reflexivity|].
  apply (H 2 3 (mk_member [3]%Z [10; 0]%Z) (mk_member [4]%Z [11; 3]%Z)); try reflexivity. apply dominates_spec; reflexivity.
Qed.

(** C31 - [e] are the positions kept.  [L] enumerates the non-dominated members. *)
Theorem C31_archive_selection :
  forall (union : list member) (d size : nat),
    2 <= length union -> size <= length union -> all_dim d m_objectives union ->
    exists e fit fits, select_archive union size = Some (e, fit) /\
      calculate_fitnesses union = Some fits /\
      (forall i, i < length union -> nth_error fits i = Some (fit i)) /\
      length e = size /\ NoDup e /\ (forall i, In i e -> i < length union) /\
      forall L, nondominated_positions m_objectives union L ->
        (length L <= size ->
           incl L e /\ forall i j, In i e -> j < length union -> ~ In j e -> (fit i <= fit j)%R) /\
        (size < length L -> incl e L).
Proof. exact select_archive_spec. Qed.
Print Assumptions C31_archive_selection.

(** The hypotheses hold of [ex_union], with three non-dominated members: room for all of them,
    or (size 2) for only some. *)
Example C31_example : nondominated_positions m_objectives ex_union [0; 1; 2].
Proof.
  split; [repeat constructor; cbn; intuition discriminate|].
  assert (G : forall x y, In x ex_union -> In y ex_union ->
            (pareto_dom (m_objectives y) (m_objectives x) <-> dominates (m_objectives y) (m_objectives x) = true)).
  { intros x y Hx Hy. symmetry. apply dominates_spec.
    destruct C30_example as (_ & D & _). now rewrite (D x Hx), (D y Hy). }
  intros i. split.
  - intros Hi. assert (exists x, nth_error ex_union i = Some x) as (x & Ex).
    { destruct Hi as [<-|[<-|[<-|[]]]]; eexists; reflexivity. }
    exists x. split; [exact Ex|]. intros y Hy Hd. apply G in Hd; [|now apply nth_error_In in Ex | exact Hy].
    destruct Hi as [<-|[<-|[<-|[]]]]; injection Ex as <-;
      destruct Hy as [<-|[<-|[<-|[<-|[]]]]]; discriminate Hd.
  - intros (x & Ex & Hn). do 4 (destruct i as [|i]; [try (cbn; tauto)|]).
    + exfalso. injection Ex as <-. apply (Hn (mk_member [3]%Z [10; 0]%Z)); [cbn; tauto|].
      apply G; [cbn; tauto | cbn; tauto | reflexivity].
    + destruct i; discriminate Ex.
Qed.

(** C76 - the individual that truncation removes from [pop] is one of a closest pair. *)
Theorem C76_truncation_removes_one_of_a_closest_pair :
  forall (union : list member) (d : nat) (pop : list nat),
    all_dim d m_objectives union -> (forall q, In q pop -> q < length union) ->
    NoDup pop -> 2 <= length pop ->
    exists t q s, choose_to_truncate union pop = Some t /\ In t pop /\ In q pop /\ q <> t /\
      apart m_objectives union t q s /\
      forall a b s', In a pop -> In b pop -> a <> b -> apart m_objectives union a b s' -> (s <= s')%Z.
Proof. exact truncation_closest. Qed.
Print Assumptions C76_truncation_removes_one_of_a_closest_pair.

(** The first two members of [ex_union] are the closest pair. *)
Example C76_example : choose_to_truncate ex_union [0; 1; 2] = Some 0 /\ choose_to_truncate ex_union [2; 3; 1] = Some 2.
Proof. split; vm_compute; reflexivity. Qed.

(** The archive itself: when there are more non-dominated individuals than fit, it is what is left of
    them after removing one of a closest pair again and again. *)
Theorem C76_archive_is_thinned :
  forall (union : list member) (d size : nat),
    2 <= length union -> 1 <= size <= length union -> all_dim d m_objectives union ->
    exists e fit, select_archive union size = Some (e, fit) /\
      forall L, nondominated_positions m_objectives union L -> size < length L ->
        exists L', Permutation L L' /\ thins m_objectives union L' e.
Proof.
  intros union d size H (Hs & Hs') D.
  destruct (select_archive_spec union d size H Hs' D) as (e & fit & _ & E & _).
  exists e, fit. split; [exact E|]. intros L HL Hlt. eapply selection_thins; eauto.
Qed.
Print Assumptions C76_archive_is_thinned.

(** SPEA2's rule breaks ties by the next distance, lexicographically.  The code does not: it
    stops comparing as soon as there are no more tied individuals than levels compared.  Here the
    members 0 and 1 are the closest pair and 1 is closer to the third, but 0 is removed. *)
Theorem C76_lexicographic_tie_breaking_refuted :
  exists (union : list member) (pop : list nat) (t q : nat) (rt rq : list Z),
    all_dim 2 m_objectives union /\
    (forall i x, nth_error union i = Some x -> nondominated_in m_objectives union x) /\
    pop = seq 0 (length union) /\
    choose_to_truncate union pop = Some t /\ In q pop /\
    sorted_distances m_objectives union pop t rt /\ sorted_distances m_objectives union pop q rq /\
    lex_lt rq rt.
Proof.
  exists [mk_member [] [0; 11]%Z; mk_member [] [1; 10]%Z; mk_member [] [10; 1]%Z], [0; 1; 2], 0, 1,
         [0; 2; 200]%Z, [0; 2; 162]%Z.
  split; [intros x [<-|[<-|[<-|[]]]]; reflexivity|].
  split.
  { intros i x Hx y Hy Hd. apply nth_error_In in Hx. apply dominates_spec in Hd;
      destruct Hx as [<-|[<-|[<-|[]]]], Hy as [<-|[<-|[<-|[]]]]; first [reflexivity | discriminate Hd]. }
  split; [reflexivity|]. split; [reflexivity|]. split; [cbn; tauto|].
  split; [split|split; [split|]].
  - repeat constructor; lia.
  - exists [0; 2; 200]%Z. split; [reflexivity|].
    repeat constructor; (eexists; eexists; split; [reflexivity|]; split; [reflexivity|]);
      apply (MetProofs.euclid_sq_dist); reflexivity.
  - repeat constructor; lia.
  - exists [2; 0; 162]%Z. split; [apply perm_swap|].
    repeat constructor; (eexists; eexists; split; [reflexivity|]; split; [reflexivity|]);
      apply (MetProofs.euclid_sq_dist); reflexivity.
  - apply lex_later, lex_later, lex_here. lia.
Qed.
Print Assumptions C76_lexicographic_tie_breaking_refuted.

(** C32 (SPEA2) - one evaluation round: the vectors evaluated are those the fitness archive does
    not hold; the charge is decided by the last individual alone. *)
Theorem C32_spea2_cost_partial :
  forall (f : vec -> vec) (fa : option (list (vec * vec))) (pop trace : list vec),
    let known v := exists m o, fa = Some m /\ lookup v m = Some o in
    exists evaluated charge,
      snd (spea_objectives f fa pop trace) = (charge, trace ++ evaluated) /\
      (forall v, In v evaluated <-> In v pop /\ ~ known v) /\
      (fa = None -> evaluated = pop) /\
      ((forall v, In v pop -> ~ known v) -> charge = length evaluated /\ evaluated = pop) /\
      (forall p v, pop = p ++ [v] -> known v -> charge = 0) /\
      (forall p v, pop = p ++ [v] -> ~ known v -> charge = length pop).
Proof. exact spea_round. Qed.
Print Assumptions C32_spea2_cost_partial.

Example C32_spea2_example :
  snd (spea_objectives (fun v => v) (Some [([1], [1])]%Z) [[1]; [0]; [2]]%Z [[9]]%Z) = (3, [[9]; [0]; [2]]%Z) /\
  snd (spea_objectives (fun v => v) (Some [([1], [1])]%Z) [[0]; [2]; [1]]%Z []) = (0, [[0]; [2]]%Z).
Proof. split; vm_compute; reflexivity. Qed.

(** Two individuals, the first unknown and evaluated, the second known: nothing is charged. *)
Theorem C32_spea2_cost_refuted :
  exists (f : vec -> vec) (fa : option (list (vec * vec))) (pop evaluated : list vec) (charge : nat),
    snd (spea_objectives f fa pop []) = (charge, evaluated) /\ charge <> length evaluated.
Proof.
  exists (fun v => v), (Some [([1], [1])]%Z), [[0]; [1]]%Z, [[0]]%Z, 0. split; [reflexivity | cbn; lia].
Qed.
Print Assumptions C32_spea2_cost_refuted.

(** C77 - a run of SPEA2: [Ds] holds the random draws of each step. *)
Theorem C77_spea2_run :
  forall (P : params) (fa : option (list (vec * vec))) (population : list vec) (Ds : list spea_draws),
    valid_box (p_dims P) -> (forall v, in_box (p_dims P) v -> in_box (p_dims P) (p_trim P v)) ->
    (forall v, length (p_f P v) = p_m P) -> (0 <= p_epsilon P)%Z ->
    (forall m k o, fa = Some m -> lookup k m = Some o -> o = p_f P k) ->
    2 <= length population -> Forall (in_box (p_dims P)) population ->
    Forall (good_draws (length population)) Ds ->
    exists s, spea_run P fa population Ds = Some s /\
      length (spea_population s) = length population /\ Forall (in_box (p_dims P)) (spea_population s) /\
      length (spea_finalized s) = (if length Ds =? 0 then 0 else length population) /\
      Forall (fun m => in_box (p_dims P) (m_value m) /\ m_objectives m = p_f P (m_value m)) (spea_archive s) /\
      (fa = None ->
         spea_cost s = length population * length Ds /\ length (spea_evals s) = length population * length Ds).
Proof. exact spea_run_ok. Qed.
Print Assumptions C77_spea2_run.

(** One step: the new archive is chosen, as in C31, among the old archive and the evaluated
    population; a non-dominated individual is lost only if the non-dominated ones do not fit. *)
Theorem C77_step_selects_from_archive_and_population :
  forall (P : params) (fa : option (list (vec * vec))) (size : nat) (D : spea_draws) (s s' : spea_state),
    (forall v, length (p_f P v) = p_m P) ->
    (forall m k o, fa = Some m -> lookup k m = Some o -> o = p_f P k) ->
    all_dim (p_m P) m_objectives (spea_archive s) ->
    2 <= length (spea_archive s) + length (spea_population s) ->
    size <= length (spea_archive s) + length (spea_population s) ->
    spea_step P fa size D s = Some s' ->
    exists union e,
      union = spea_archive s ++ map (fun v => mk_member v (p_f P v)) (spea_population s) /\
      map Some (spea_archive s') = map (nth_error union) e /\ length e = size /\ NoDup e /\
      forall L, nondominated_positions m_objectives union L ->
        (length L <= size -> incl L e) /\ (size < length L -> incl e L).
Proof. exact spea_step_selects. Qed.
Print Assumptions C77_step_selects_from_archive_and_population.

Example C77_example :
  let dims := [(0, 10); (0, 10)]%Z in
  valid_box dims /\ Forall (in_box dims) [[1; 2]; [3; 4]]%Z /\
  good_draws 2 {| t1 := fun _ => (0, 1); t2 := fun _ => (1, 0); s_r0 := fun _ => 0%Z; s_pick := fun _ => true;
                  s_skip := fun _ _ => 0%Z; s_rand := fun _ _ => 0%Z; s_swap := fun _ _ => 0%Z;
                  s_sel := fun _ _ => 0%Z; s_rnd := fun _ _ => 0%Z |}.
Proof.
  cbv zeta. split; [repeat constructor; cbn; lia|]. split; [repeat constructor; cbn; lia|].
  intros i Hi. cbn. lia.
Qed.
