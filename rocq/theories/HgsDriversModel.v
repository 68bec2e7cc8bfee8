(** Model of the drivers of HGS's nodes: how ClassicHGS.py:234-249 makes a driver for a level, lines 261-281 use it, and the
    message adapters */message.py nominate its delegates.  No proofs here. *)
From Coq Require Import QArith Reals.
From Verif Require Import Spec DomModel VarModel NDSortModel NsgaModel NslsSpec NslsModel Nsga3Spec Nsga3Model SpeaSpec SpeaModel IbeaModel SmsSpec SmsModel
  OmopsoSpec OmopsoModel JgblSpec JgblModel HgsModel HgsNsgaModel.
Local Open Scope nat_scope.

(** A driver as a node uses it: the constructor, next_step(), cost, finalized_population() and nominate_delegates().  [A] is what
    its constructor is given besides the population, [draw] all randomness and everything shared with other nodes.
    ClassicHGS.py:234-249, 261-281. *)
Record node_driver (A draw drv : Type) := {
  n_new : A -> draw -> list vec -> option drv;
  n_step : A -> draw -> drv -> option drv;
  n_cost : drv -> nat;
  n_final : A -> draw -> drv -> option (drv * list vec);
  n_delegates : A -> drv -> option (list vec)
}.
Arguments n_new {A draw drv}. Arguments n_step {A draw drv}. Arguments n_cost {A draw drv}.
Arguments n_final {A draw drv}. Arguments n_delegates {A draw drv}.

(** ClassicHGS.py:234-249: a node's driver gets the arguments of the node's level, and keeps them. *)
Section Levels.
  Context {A draw drv : Type}.
  Variable N : node_driver A draw drv.
  Variable args : nat -> A.
  (** ClassicHGS.py:234-249: the driver of a node of level [lv]. *)
  Definition at_new (lv : nat) (x : draw) (pop : list vec) : option (nat * drv) :=
    match n_new N (args lv) x pop with Some d => Some (lv, d) | None => None end.
  (** ClassicHGS.py:261-277, driver.py:79-80. *)
  Definition at_step (x : draw) (d : nat * drv) : option (nat * drv) :=
    match n_step N (args (fst d)) x (snd d) with Some d' => Some (fst d, d') | None => None end.
  (** ClassicHGS.py:271-277. *)
  Definition at_cost (d : nat * drv) : Z := Z.of_nat (n_cost N (snd d)).
  (** ClassicHGS.py:279-281. *)
  Definition at_final (x : draw) (d : nat * drv) : option ((nat * drv) * list vec) :=
    match n_final N (args (fst d)) x (snd d) with Some (d', pop) => Some ((fst d, d'), pop) | None => None end.
  (** ClassicHGS.py:281. *)
  Definition at_delegates (d : nat * drv) : option (list vec) := n_delegates N (args (fst d)) (snd d).

  (** HGS over this driver (ClassicHGS.py). *)
  Definition start_hgs (C : config) := hgs_init (nat * drv) draw at_new C.
  (** ClassicHGS.py:92-125, any number of steps. *)
  Definition run_hgs (hv_of : list vec -> Q) (raw : Z -> Z -> Z -> Z -> Z) (EPSILON : Q) (C : config) :=
    hgs_run (nat * drv) draw at_new at_step at_cost at_final at_delegates hv_of raw EPSILON C.
End Levels.

(** ClassicHGS.py:74, 242: the archive of a level as the nodes of the level left it, if what they evaluated is [known].  SPEA2,
    IBEA, SMS-EMOA and OMOPSO look things up but never write, so with them it stays empty. *)
Definition shared (P : params) (known : list vec) : option (list (vec * vec)) := Some (map (fun v => (v, p_f P v)) known).
(** ClassicHGS.py:74: an archive with nothing in it. *)
Definition untouched : option (list (vec * vec)) := Some [].

(** ---- NSGA-II: NSGAII.py, NSGAII/message.py:9-12 ---- *)
Definition with_archive (s : nstate) (ar : option (list (vec * vec))) : nstate :=
  {| individuals := individuals s; population_size := population_size s; mating_size := mating_size s; cost := cost s; evals := evals s; archive := ar |}.
(** NSGAII.py:29-99, NSGAII/message.py:9-12. *)
Definition nsga_node : node_driver (params * (nat -> nat)) (NsgaModel.step_draws * list vec) nd := {|
  n_new := fun a x pop => Some (init (fst a) (snd a) (shared (fst a) (snd x)) pop, []);
  n_step := fun a x d => nd_step (fst a) (fst x) (with_archive (fst d) (shared (fst a) (snd x)), snd d);
  n_cost := fun d => cost (fst d);
  n_final := fun a x d => nd_final (fst a) (fst x) (with_archive (fst d) (shared (fst a) (snd x)), snd d);
  n_delegates := fun _ d => nd_delegates d
|}.

(** ---- JGBL: JGBL.py, JGBL/message.py:8-9 (NSGA-II's adapter) ---- *)
Definition jgbl_node (b : box) : node_driver (params * (nat -> nat)) (NsgaModel.step_draws * { J : jump_draws | jump_ok b J } * list vec) nd := {|
  n_new := fun a x pop => Some (init (fst a) (snd a) (shared (fst a) (snd x)) pop, []);
  n_step := fun a x d =>
    match jstep (fst a) (fst (fst x)) (proj1_sig (snd (fst x))) (with_archive (fst d) (shared (fst a) (snd x))) with
    | Some s => Some (s, snd d)
    | None => None
    end;
  n_cost := fun d => cost (fst d);
  n_final := fun a x d => nd_final (fst a) (fst (fst x)) (with_archive (fst d) (shared (fst a) (snd x)), snd d);
  n_delegates := fun _ d => nd_delegates d
|}.

(** ---- SPEA2: SPEA2.py, SPEA2/message.py:27-32.  The state is archive_size and the rest. ---- *)
Definition spea_node : node_driver params { D : nat -> spea_draws | forall n, 2 <= n -> good_draws n (D n) } (nat * spea_state) := {|
  n_new := fun P _ pop => Some (length pop, spea_init P pop);
  n_step := fun P D d =>
    match spea_step P untouched (fst d) (proj1_sig D (fst d)) (snd d) with Some s => Some (fst d, s) | None => None end;
  n_cost := fun d => spea_cost (snd d);
  n_final := fun _ _ d => Some (d, spea_finalized (snd d));
  n_delegates := fun _ d => Some (map m_value (spea_archive (snd d)))
|}.

(** ---- IBEA: IBEA.py, IBEA/message.py:10-24: the first layer of the individuals ---- *)
Definition ibea_node : node_driver (ibea_params * (nat -> nat)) NsgaModel.step_draws ibea_state := {|
  n_new := fun a _ pop => Some (ibea_init (fst a) (snd a) pop);
  n_step := fun a D s => ibea_step (fst a) D s;
  n_cost := fun s => ib_cost s;
  n_final := fun a _ s => ibea_finish (fst a) s;
  n_delegates := fun a s =>
    match paretofront_layers (fun i => p_f (ip (fst a)) (ib_v i)) (ib_individuals s) with
    | Some (layer :: _) => Some (map ib_v layer)
    | _ => None
    end
|}.

(** ---- SMS-EMOA: SMSEMOA.py, SMSEMOA/message.py:29-34.  The state is epoch_length and the rest; [sa_epoch n] is
    int(n * epoch_length_multiplier) (line 39). ---- *)
Record sms_args := { sa_params : params; sa_neg : Z; sa_ref : vec; sa_epoch : nat -> nat }.
(** SMSEMOA.py:13-62, SMSEMOA/message.py:29-34. *)
Definition sms_node : node_driver sms_args { D : nat -> nat -> sms_draws | forall n i, 2 <= n -> good_sample n (D n i) } (nat * sms_state) := {|
  n_new := fun a _ pop => Some (sa_epoch a (length pop), sms_init (sa_params a) untouched pop);
  n_step := fun a D d =>
    match sms_step (sa_params a) (sa_neg a) (sa_ref a) untouched (fst d) (proj1_sig D (length (sms_individuals (snd d)))) (snd d) with
    | Some s => Some (fst d, s)
    | None => None
    end;
  n_cost := fun d => sms_cost (snd d);
  n_final := fun _ _ d => Some (d, sms_finalized (snd d));
  n_delegates := fun a d =>
    let pop := sms_individuals (snd d) in
    match smsemoa_nd_sort (objectives_at pop) (p_iter (sa_params a)) (seq 0 (length pop)) with
    | None => None
    | Some [] => Some []
    | Some (front :: _) => Some (map (fun i => m_value (nth i pop (mk_member [] []))) front)
    end
|}.

(** ---- OMOPSO: OMOPSO.py, OMOPSO/message.py:29-34: the whole swarm.  The arguments are the driver's and its archive's
    epsilon as a fraction. ---- *)
Definition omopso_node : node_driver (params * (Z * Z))
    { D : nat -> om_draws | forall n k, 1 < n -> fst (om_pick (D n) k) < n /\ snd (om_pick (D n) k) < n } om_state := {|
  n_new := fun a _ pop => om_init (fst a) (fst (snd a)) (snd (snd a)) untouched pop;
  n_step := fun a D s => om_step (fst a) (fst (snd a)) (snd (snd a)) untouched (proj1_sig D (length (om_leaders s))) s;
  n_cost := fun s => om_cost s;
  n_final := fun _ _ s => Some (s, om_finalized s);
  n_delegates := fun _ s => Some (map OmopsoModel.value (om_particles s))
|}.

(** ---- NSGA-III: NSGAIII.py, NSGAIII/message.py:9-10 ---- *)

(** NSGAIII.py:117-177, 206: the first front of the step's theta_non_dominated_sort, kept as self.front. *)
Definition n3_front (P : params) (theta : R) (D : n3_draws) (s : n3_state) : option (list vec) :=
  match make_offspring P D (n3_size s) (n3_individuals s) with
  | None => None
  | Some offspring =>
      match update_ideal_point P (n3_ideal s) (n3_context s) offspring with
      | None => None
      | Some (offspring', ctx, ideal) =>
          let pop := offspring' ++ n3_individuals s in
          match normalize (p_epsilon P) (p_m P) ideal pop with
          | None => None
          | Some ns =>
              match clustering (n3_refs s) ns with
              | None => None
              | Some cs =>
                  let cluster i := fst (nth i cs (0, 0%R)) in
                  let fitness i := theta_fitness theta (n3_refs s) (nth i ns []) (nth i cs (0, 0%R)) in
                  match nd_sort_gen (theta_dominates3 cluster fitness) (p_iter P) (seq 0 (length pop)) with
                  | None => None
                  | Some fronts => Some (map (fun i => iv (at_pos pop i)) (hd [] fronts))
                  end
              end
          end
      end
  end.
(** ClassicHGS.py:242: the archive the driver sees at its next step. *)
Definition n3_with_archive (s : n3_state) (ar : option (list (vec * vec))) : n3_state :=
  {| n3_individuals := n3_individuals s; n3_size := n3_size s; n3_refs := n3_refs s; n3_ideal := n3_ideal s;
     n3_context := (fst (fst (n3_context s)), ar, snd (n3_context s)); n3_seen := n3_seen s |}.
(** What a step draws, for every population size; what the constructor draws (NSGAIII.py:74-78). *)
Record n3_node_draws := { nn_step : nat -> n3_draws; nn_refs : nat -> nat -> R; nn_known : list vec }.
(** NSGAIII.py:74-78, 208-234: what random.choice and random.random can give. *)
Definition n3_node_draws_ok (x : n3_node_draws) : Prop :=
  (forall n, 2 <= n -> n3_draws_ok n (nn_step x n)) /\ (forall k i, (0 < nn_refs x k i < 1)%R).
(** The state is the driver and self.front[1]: there is none before the first step (line 72), and front[1] raises.  The loop
    that fills the next generation is given 2 * population_size rounds: more change nothing (C41). *)
Definition n3_node : node_driver (params * R) { x : n3_node_draws | n3_node_draws_ok x } (n3_state * option (list vec)) := {|
  n_new := fun a x pop =>
    match n3_init (fst a) (nn_refs (proj1_sig x)) (shared (fst a) (nn_known (proj1_sig x))) pop with Some s => Some (s, None) | None => None end;
  n_step := fun a x d =>
    let s := n3_with_archive (fst d) (shared (fst a) (nn_known (proj1_sig x))) in
    let D := nn_step (proj1_sig x) (n3_size s) in
    match n3_front (fst a) (snd a) D s, n3_step (fst a) (snd a) (2 * n3_size s) D s with
    | Some f, Done s' => Some (s', Some f)
    | _, _ => None
    end;
  n_cost := fun d => fst (fst (n3_context (fst d)));
  n_final := fun _ _ d => Some (d, n3_finalized (fst d));
  n_delegates := fun _ d => snd d
|}.

(** ---- NSLS: NSLS.py, NSLS/message.py:9-10 ---- *)

(** NSLS.py:80-84, 134-156: the first front of the step's nd_sort, kept as self.front. *)
Definition nl_front (P : params) (D : ls_draws) (s : nsls_state) : option (list vec) :=
  match local_search P D (fold_left (evaluate P) (nl_individuals s) ([], nl_context s)) with
  | None => None
  | Some (inds, _) =>
      match nsls_nd_sort (fun i => objs (at_pos inds i)) (p_iter P) (seq 0 (length inds)) with
      | None => None
      | Some fronts => Some (map (fun i => iv (at_pos inds i)) (hd [] fronts))
      end
  end.
(** ClassicHGS.py:242: the archive the driver sees at its next step. *)
Definition nl_with_archive (s : nsls_state) (ar : option (list (vec * vec))) : nsls_state :=
  {| nl_individuals := nl_individuals s; nl_size := nl_size s; nl_context := (fst (fst (nl_context s)), ar, snd (nl_context s)) |}.
(** NSLS.py:88-93, 114, 121, 196: what a step draws. *)
Record nl_node_draws := { nl_search : nat -> ls_draws; nl_sample : nat -> list nat -> list nat; nl_known : list vec }.
(** NSLS.py:92, 196: what random.sample can give. *)
Definition nl_node_draws_ok (x : nl_node_draws) : Prop :=
  (forall n i k, 2 <= n -> fst (ls_sample (nl_search x n) i k) < n /\ snd (ls_sample (nl_search x n) i k) < n /\
                           fst (ls_sample (nl_search x n) i k) <> snd (ls_sample (nl_search x n) i k)) /\ is_sample (nl_sample x).
(** The loop of next_generation is given 2 * population_size rounds: if it has not ended by then it never does (C38), and the
    None of this step is that hang. NSLS.py:80-84, NSLS/message.py:9-10. *)
Definition nsls_node : node_driver params { x : nl_node_draws | nl_node_draws_ok x } (nsls_state * option (list vec)) := {|
  n_new := fun P x pop => Some (nsls_init P (shared P (nl_known (proj1_sig x))) pop, None);
  n_step := fun P x d =>
    let s := nl_with_archive (fst d) (shared P (nl_known (proj1_sig x))) in
    let D := nl_search (proj1_sig x) (nl_size s) in
    match nl_front P D s, nsls_step P (2 * nl_size s) D (nl_sample (proj1_sig x)) s with
    | Some f, Done s' => Some (s', Some f)
    | _, _ => None
    end;
  n_cost := fun d => fst (fst (nl_context (fst d)));
  n_final := fun _ _ d => Some (d, nsls_finalized (fst d));
  n_delegates := fun _ d => snd d
|}.
