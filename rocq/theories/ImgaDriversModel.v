(** Model of the drivers of IMGA's islands: how IMGA.py:114-130 makes an island's driver (no fitness archive), how IMGA.py:62-83 and
    132-134 use it, and which of its attributes the message adapters */message.py read and replace.  No proofs here. *)
From Coq Require Import QArith Reals.
From Verif Require Import Spec DomModel VarModel NDSortModel NsgaModel NslsSpec NslsModel Nsga3Spec Nsga3Model SpeaSpec SpeaModel IbeaModel SmsSpec SmsModel
  OmopsoSpec OmopsoModel JgblSpec JgblModel HgsDriversModel ImgaModel ImgaRunModel.
Local Open Scope nat_scope.

(** A driver as an island uses it: its individuals with their vectors, what immigrate() does to a newcomer, next_step(), cost, the list
    of individuals and its replacement, finalized_population() and the constructor.  [draw] is all randomness of a step.
    IMGA.py:114-187. *)
Record island_driver (draw drv ind : Type) := {
  i_value : ind -> vec;
  i_admit : ind -> ind;
  i_step : draw -> drv -> option drv;
  i_cost : drv -> nat;
  i_inds : drv -> list ind;
  i_set : drv -> list ind -> drv;
  i_final : drv -> option (drv * list vec);
  i_new : list vec -> option drv
}.
Arguments i_value {draw drv ind}. Arguments i_admit {draw drv ind}. Arguments i_step {draw drv ind}. Arguments i_cost {draw drv ind}.
Arguments i_inds {draw drv ind}. Arguments i_set {draw drv ind}. Arguments i_final {draw drv ind}. Arguments i_new {draw drv ind}.

(** IMGA over this driver (IMGA.py). *)
Section Imga.
  Context {draw drv ind : Type}.
  Variable I : island_driver draw drv ind.
  (** IMGA.py:44-48, 96-130. *)
  Definition start_imga := imga_init drv (i_new I).
  (** IMGA.py:67-83, any number of steps. *)
  Definition run_imga (f : vec -> vec) := imga_steps drv draw ind (i_value I) (i_admit I) (i_step I) (i_cost I) (i_inds I) (i_set I) f.
  (** IMGA.py:62-65. *)
  Definition result_imga := imga_final drv (i_final I).
End Imga.

(** ---- NSGA-II and JGBL: NSGAII.py, JGBL.py, IMGA/message.py:12-30 ---- *)
Definition nsga_island_driver (P : params) (mating : nat -> nat) : island_driver NsgaModel.step_draws nstate indiv := {|
  i_value := iv; i_admit := fun i => i; i_step := step P; i_cost := cost; i_inds := individuals; i_set := with_individuals;
  i_final := finish P; i_new := fun pop => Some (init P mating None pop)
|}.
(** JGBL.py:42-99, IMGA/message.py:12-30. *)
Definition jgbl_island_driver (P : params) (mating : nat -> nat) : island_driver (NsgaModel.step_draws * { J : jump_draws | jump_ok (p_dims P) J }) nstate indiv := {|
  i_value := iv; i_admit := fun i => i; i_step := fun x => jstep P (fst x) (proj1_sig (snd x)); i_cost := cost; i_inds := individuals;
  i_set := with_individuals; i_final := finish P; i_new := fun pop => Some (init P mating None pop)
|}.

(** ---- SPEA2: SPEA2.py, SPEA2/message.py:6-24.  The state is archive_size and the rest; an individual is {"value": v} (line 61-62),
    the rest of the dictionary is filled in by the step (lines 91-124). ---- *)
Definition spea_replace (d : nat * spea_state) (l : list vec) : nat * spea_state :=
  (fst d, {| spea_population := l; spea_archive := spea_archive (snd d); spea_cost := spea_cost (snd d); spea_evals := spea_evals (snd d) |}).
(** SPEA2.py:48-90, SPEA2/message.py:6-24. *)
Definition spea_island_driver (P : params) : island_driver { D : nat -> spea_draws | forall n, 2 <= n -> good_draws n (D n) } (nat * spea_state) vec := {|
  i_value := fun v => v; i_admit := fun v => v;
  i_step := fun D d => match spea_step P None (fst d) (proj1_sig D (fst d)) (snd d) with Some s => Some (fst d, s) | None => None end;
  i_cost := fun d => spea_cost (snd d);
  i_inds := fun d => spea_population (snd d); i_set := spea_replace;
  i_final := fun d => Some (d, spea_finalized (snd d));
  i_new := fun pop => Some (length pop, spea_init P pop)
|}.

(** ---- SMS-EMOA: SMSEMOA.py, SMSEMOA/message.py:7-26.  The state is epoch_length and the rest. ---- *)
Definition sms_replace (d : nat * sms_state) (l : list member) : nat * sms_state :=
  (fst d, {| sms_individuals := l; sms_cost := sms_cost (snd d); sms_evals := sms_evals (snd d) |}).
(** SMSEMOA.py:13-62, SMSEMOA/message.py:7-26. *)
Definition sms_island_driver (a : sms_args) : island_driver { D : nat -> nat -> sms_draws | forall n i, 2 <= n -> good_sample n (D n i) } (nat * sms_state) member := {|
  i_value := m_value; i_admit := fun i => i;
  i_step := fun D d =>
    match sms_step (sa_params a) (sa_neg a) (sa_ref a) None (fst d) (proj1_sig D (length (sms_individuals (snd d)))) (snd d) with
    | Some s => Some (fst d, s)
    | None => None
    end;
  i_cost := fun d => sms_cost (snd d);
  i_inds := fun d => sms_individuals (snd d); i_set := sms_replace;
  i_final := fun d => Some (d, sms_finalized (snd d));
  i_new := fun pop => Some (sa_epoch a (length pop), sms_init (sa_params a) None pop)
|}.

(** ---- OMOPSO: OMOPSO.py, OMOPSO/message.py:6-26 ---- *)
(** OMOPSO.py:260-261 *)
Definition reset_speed (p : particle) : particle :=
  {| OmopsoModel.value := OmopsoModel.value p; speed := repeat 0%Z (length (OmopsoModel.value p)); objectives := objectives p; bests := bests p; visited := visited p |}.
(** OMOPSO/message.py:6-26: the particles are exchanged, the leaders are not. *)
Definition om_replace (s : om_state) (l : list particle) : om_state :=
  {| om_particles := l; om_size := om_size s; om_leaders := om_leaders s; om_archive := om_archive s; om_cost := om_cost s; om_evals := om_evals s |}.
(** OMOPSO.py:11-113, OMOPSO/message.py:6-26. *)
Definition omopso_island_driver (P : params) (en ed : Z)
  : island_driver { D : nat -> om_draws | forall n k, 1 < n -> fst (om_pick (D n) k) < n /\ snd (om_pick (D n) k) < n } om_state particle := {|
  i_value := OmopsoModel.value; i_admit := reset_speed;
  i_step := fun D s => om_step P en ed None (proj1_sig D (length (om_leaders s))) s;
  i_cost := om_cost; i_inds := om_particles; i_set := om_replace;
  i_final := fun s => Some (s, om_finalized s);
  i_new := om_init P en ed None
|}.

(** ---- NSGA-III: NSGAIII.py, IMGA/message.py:12-30.  Newcomers reach neither ideal_point nor reference_points. ---- *)
Definition n3_replace (s : n3_state) (l : list indiv) : n3_state :=
  {| n3_individuals := l; n3_size := n3_size s; n3_refs := n3_refs s; n3_ideal := n3_ideal s; n3_context := n3_context s; n3_seen := n3_seen s |}.
(** [rands]: what the constructor draws (NSGAIII.py:74-78). *)
Definition n3_island_driver (P : params) (theta : R) (rands : nat -> nat -> R)
  : island_driver { D : nat -> n3_draws | forall n, 2 <= n -> n3_draws_ok n (D n) } n3_state indiv := {|
  i_value := iv; i_admit := fun i => i;
  i_step := fun D s => match n3_step P theta (2 * n3_size s) (proj1_sig D (n3_size s)) s with Done s' => Some s' | _ => None end;
  i_cost := fun s => fst (fst (n3_context s)); i_inds := n3_individuals; i_set := n3_replace;
  i_final := fun s => Some (s, n3_finalized s);
  i_new := n3_init P rands None
|}.

(** ---- NSLS: NSLS.py, IMGA/message.py:12-30.  The None of a step is a hang (C38). ---- *)
Definition nl_replace (s : nsls_state) (l : list indiv) : nsls_state :=
  {| nl_individuals := l; nl_size := nl_size s; nl_context := nl_context s |}.
(** NSLS.py:88-93, 114, 121, 196: what a step draws. *)
Record nl_island_draws := { nli_search : nat -> ls_draws; nli_sample : nat -> list nat -> list nat }.
(** NSLS.py:92, 196: what random.sample can give. *)
Definition nl_island_draws_ok (x : nl_island_draws) : Prop :=
  (forall n i k, 2 <= n -> fst (ls_sample (nli_search x n) i k) < n /\ snd (ls_sample (nli_search x n) i k) < n /\
                           fst (ls_sample (nli_search x n) i k) <> snd (ls_sample (nli_search x n) i k)) /\ is_sample (nli_sample x).
(** NSLS.py:40-84, IMGA/message.py:12-30. *)
Definition nsls_island_driver (P : params) : island_driver { x : nl_island_draws | nl_island_draws_ok x } nsls_state indiv := {|
  i_value := iv; i_admit := fun i => i;
  i_step := fun x s => match nsls_step P (2 * nl_size s) (nli_search (proj1_sig x) (nl_size s)) (nli_sample (proj1_sig x)) s with Done s' => Some s' | _ => None end;
  i_cost := fun s => fst (fst (nl_context s)); i_inds := nl_individuals; i_set := nl_replace;
  i_final := fun s => Some (s, nsls_finalized s);
  i_new := fun pop => Some (nsls_init P None pop)
|}.

(** ---- IBEA: IBEA.py, IMGA/message.py:12-30 ---- *)
(** The individuals may have changed since _scale_objectives() took the ranges (IBEA.py:84-91); [ibi_measured] are the vectors it saw. *)
Record ibea_island := { ibi_state : ibea_state; ibi_measured : list vec }.
(** IBEA.py:84-91 on the individuals the ranges were taken from. *)
Definition ibi_ranges (P : ibea_params) (s : ibea_island) : option (list (Z * Z)) :=
  measured (p_m (ip P)) (fun x => p_f (ip P) (nth x (ibi_measured s) [])) (seq 0 (length (ibi_measured s))).
(** IBEA.py:100-137 with those ranges. *)
Definition ibi_select (P : ibea_params) (s : ibea_island) : option (list nat * (nat -> R)) :=
  match ibi_ranges P s with
  | None => None
  | Some ranges =>
      match select_within (ip_eps P) (ip_kappa P) (p_m (ip P)) (fun x => p_f (ip P) (ib_vec (ib_individuals (ibi_state s)) x)) ranges
                          (ib_size (ibi_state s)) (seq 0 (length (ib_individuals (ibi_state s)))) with
      | Some (surv, fit, _) => Some (surv, fit)
      | None => None
      end
  end.
(** IBEA.py:76-91 *)
Definition ibi_scale (P : ibea_params) (s : ibea_state) : ibea_island :=
  {| ibi_state := scale_objectives (ip_fa P) s; ibi_measured := map ib_v (ib_individuals s) |}.
(** IBEA.py:64-74 *)
Definition ibi_step (P : ibea_params) (D : NsgaModel.step_draws) (s : ibea_island) : option ibea_island :=
  match ibi_select P s with
  | None => None
  | Some (surv, fit) =>
      let st := ibi_state s in
      match ibea_mating D fit surv (ib_mating st) with
      | None => None
      | Some mating =>
          match collect (map (ibea_child (ip P) D (ib_individuals st) mating (ib_mating st)) (seq 0 (ib_mating st))) with
          | None => None
          | Some children =>
              Some (ibi_scale P (ib_with st (map (fun x => nth x (ib_individuals st) (mk_ibea [] false)) surv ++ children)))
          end
      end
  end.
(** IBEA.py:29-50 *)
Definition ibi_init (P : ibea_params) (mating : nat -> nat) (pop : list vec) : ibea_island :=
  {| ibi_state := ibea_init P mating pop; ibi_measured := map (p_trim (ip P)) pop |}.
(** IBEA.py:29-74, IMGA/message.py:12-30. *)
Definition ibea_island_driver (P : params) (eps kappa : R) (mating : nat -> nat) : island_driver NsgaModel.step_draws ibea_island ind_ibea :=
  let Q := {| ip := P; ip_eps := eps; ip_kappa := kappa; ip_fa := None |} in {|
  i_value := ib_v; i_admit := fun i => i; i_step := ibi_step Q; i_cost := fun s => ib_cost (ibi_state s);
  i_inds := fun s => ib_individuals (ibi_state s);
  i_set := fun s l => {| ibi_state := ib_with (ibi_state s) l; ibi_measured := ibi_measured s |};
  i_final := fun s => match ibea_finish Q (ibi_state s) with Some (s', out) => Some ({| ibi_state := s'; ibi_measured := map ib_v (ib_individuals (ibi_state s)) |}, out) | None => None end;
  i_new := fun pop => Some (ibi_init Q mating pop)
|}.
