(** Model of the SMS-EMOA driver.  Source: algorithms/SMSEMOA/SMSEMOA.py.
    An individual has a value and objectives (SMSEMOA.py:140-143; [member]).  Individuals are
    compared by identity; inside reduce_population the identity is the position in the list.
    None = exception. *)
From Verif Require Import Spec DomModel NDSortModel VarModel NsgaModel HvModel MetModel SpeaModel.
Local Open Scope nat_scope.

(** p.objectives for the individual at a position. SMSEMOA.py:140-143. *)
Definition objectives_at (pop : list member) (i : nat) : vec := m_objectives (nth i pop (mk_member [] [])).

(** l[:i] + l[i+1:]. SMSEMOA.py:101-110. *)
Definition without {A} (i : nat) (l : list A) : list A := firstn i l ++ skipn (S i) l.

(** SMSEMOA.py:101-110: the contribution of each member of the front, in order. *)
Definition hypervolume_contributions (neg : Z) (ref : vec) (results : list vec) : option (list Z) :=
  match compute neg ref results with
  | None => None
  | Some hv_global =>
      comprehension (fun i => match compute neg ref (without i results) with
                              | Some h => Some (hv_global - h)%Z
                              | None => None
                              end) (seq 0 (length results))
  end.

(** SMSEMOA.py:96: min over (individual, contribution) by contribution, the first on ties. *)
Fixpoint min_contributor (best : nat * Z) (l : list (nat * Z)) : nat :=
  match l with
  | [] => fst best
  | x :: l' => min_contributor (if (snd x <? snd best)%Z then x else best) l'
  end.

(** SMSEMOA.py:91-99.  [iter] is the set iteration order inside nd_sort; max() over the items of
    the fronts dictionary takes the front with the greatest number, the last of the list. *)
Definition reduce_population (neg : Z) (ref : vec) (iter : nat -> list nat -> list nat)
           (pop : list member) : option (list member) :=
  match smsemoa_nd_sort (objectives_at pop) iter (seq 0 (length pop)) with
  | None => None
  | Some fronts =>
      match rev fronts with
      | [] => None
      | worst_front :: _ =>
          match hypervolume_contributions neg ref (map (objectives_at pop) worst_front) with
          | None => None
          | Some hv_contribution =>
              match combine worst_front hv_contribution with
              | [] => None
              | c :: cs => Some (without (min_contributor c cs) pop)
              end
          end
      end
  end.

(** The random draws of one generated individual: random.sample(pop, 2) (line 76) and the draws
    of crossover and mutation. *)
Record sms_draws := {
  sample2 : nat * nat;
  g_r0 : Z; g_pick : bool; g_skip : nat -> Z; g_rand : nat -> Z; g_swap : nat -> Z;
  g_sel : nat -> Z; g_rnd : nat -> Z
}.

(** SMSEMOA.py:75-89; random.sample raises ValueError when there are fewer than two. *)
Definition generate (P : params) (D : sms_draws) (pop : list member) : option vec :=
  let '(i, j) := sample2 D in
  if i =? j then None
  else match nth_error pop i, nth_error pop j with
       | Some a, Some b =>
           match crossover (p_raw_a P) (p_raw_b P) (g_skip D) (g_rand D) (g_swap D)
                           (p_half P) (p_epsilon P) (g_r0 D) (p_crossover_rate P) (g_pick D)
                           (m_value a) (m_value b) (p_dims P) with
           | None => None
           | Some x =>
               match mutate (p_raw P) (g_sel D) (g_rnd D) (p_mutation_rate P) x (p_dims P) with
               | None => None
               | Some y => Some (p_trim P y)
               end
           end
       | _, _ => None
       end.

(** SMSEMOA.py:64-73, the same code as SPEA2.py:113-124 except that the charge is the length of
    self.population and not of the argument.  The archive is not written. *)
Definition sms_objectives (f : vec -> vec) (fa : option (list (vec * vec))) (population_length : nat)
           (pop : list vec) (tr : list vec) : list member * (nat * list vec) :=
  fold_left (spea_evaluate f fa population_length) pop ([], (0, tr)).

(** Mutable state; [sms_evals] is the trace of vectors handed to the problem's objectives.
    SMSEMOA.py:29-53. *)
Record sms_state := { sms_individuals : list member; sms_cost : nat; sms_evals : list vec }.

(** SMSEMOA.py:59-62: one iteration of the loop of step. *)
Definition sms_generation (P : params) (neg : Z) (ref : vec) (fa : option (list (vec * vec)))
           (D : sms_draws) (s : sms_state) : option sms_state :=
  match generate P D (sms_individuals s) with
  | None => None
  | Some v =>
      let '(new, (c, tr)) := sms_objectives (p_f P) fa (length (sms_individuals s)) [v] (sms_evals s) in
      match reduce_population neg ref (p_iter P) (sms_individuals s ++ new) with
      | None => None
      | Some pop => Some {| sms_individuals := pop; sms_cost := sms_cost s + c; sms_evals := tr |}
      end
  end.

(** SMSEMOA.py:58-62: the loop. *)
Fixpoint sms_generations (P : params) (neg : Z) (ref : vec) (fa : option (list (vec * vec)))
         (Ds : list sms_draws) (s : sms_state) : option sms_state :=
  match Ds with
  | [] => Some s
  | D :: Ds' => match sms_generation P neg ref fa D s with
                | Some s' => sms_generations P neg ref fa Ds' s'
                | None => None
                end
  end.

(** SMSEMOA.py:58-62: [draws] gives the draws of the iterations 0 .. epoch_length-1. *)
Definition sms_step (P : params) (neg : Z) (ref : vec) (fa : option (list (vec * vec))) (epoch_length : nat)
           (draws : nat -> sms_draws) (s : sms_state) : option sms_state :=
  sms_generations P neg ref fa (map draws (seq 0 epoch_length)) s.

(** SMSEMOA.py:29-45 *)
Definition sms_init (P : params) (fa : option (list (vec * vec))) (population : list vec) : sms_state :=
  let '(inds, (c, tr)) := sms_objectives (p_f P) fa (length population) (map (p_trim P) population) [] in
  {| sms_individuals := inds; sms_cost := c; sms_evals := tr |}.

(** A run of the driver: one [nat -> sms_draws] per call of step; epoch_length =
    int(len(individuals) * epoch_length_multiplier) (line 39) is a parameter. *)
Fixpoint sms_steps (P : params) (neg : Z) (ref : vec) (fa : option (list (vec * vec))) (epoch_length : nat)
         (Ds : list (nat -> sms_draws)) (s : sms_state) : option sms_state :=
  match Ds with
  | [] => Some s
  | D :: Ds' => match sms_step P neg ref fa epoch_length D s with
                | Some s' => sms_steps P neg ref fa epoch_length Ds' s'
                | None => None
                end
  end.
(** SMSEMOA.py:13-62: the constructor and any number of steps. *)
Definition sms_run (P : params) (neg : Z) (ref : vec) (fa : option (list (vec * vec))) (epoch_length : nat)
           (population : list vec) (Ds : list (nat -> sms_draws)) : option sms_state :=
  sms_steps P neg ref fa epoch_length Ds (sms_init P fa population).
(** SMSEMOA.py:55-56 *)
Definition sms_finalized (s : sms_state) : list vec := map m_value (sms_individuals s).
