(** Model of whole IMGA runs.  Source: algorithms/IMGA/IMGA.py, algorithms/base/driver.py.
    None = an exception. *)
From Verif Require Import Spec VarModel NsgaModel ImgaModel.
From Coq Require Import QArith.
Local Open Scope nat_scope.

Section Run.
  (** The islands' driver: a state, one next_step() with its random draws, its cost, its individuals
      (read and replaced by the message adapter) with their vectors and what immigrate() does to them,
      finalized_population(), and the constructor. *)
  Variables drv draw ind : Type.
  Variable value : ind -> vec.
  Variable admit : ind -> ind.
  Variable dstep : draw -> drv -> option drv.
  Variable dcost : drv -> nat.
  Variable dinds : drv -> list ind.
  Variable dset : drv -> list ind -> drv.
  Variable dfinal : drv -> option (drv * list vec).
  Variable dinit : list vec -> option drv.
  Variable f : vec -> vec.

  (** IMGA.py:132-134 with driver.py:79-80 and the last() of IMGA.py:73: StepsRun(epoch_length); the result
      is the cost in the last message.  last() raises when there is none. *)
  Fixpoint epoch (draws : list draw) (s : drv) (message : option nat) : option (drv * nat) :=
    match draws with
    | [] => match message with Some c => Some (s, c) | None => None end
    | d :: draws' => match dstep d s with None => None | Some s' => epoch draws' s' (Some (dcost s')) end
    end.

  (** What IMGA keeps: the topology's sets (in iteration order), the islands' drivers, its own cost.
      IMGA.py:37-48. *)
  Record imga := { imga_topology : list (list nat); imga_drivers : list drv; imga_cost : nat }.

  (** The randomness of one step: the islands' draws, the order in which their epochs complete, the migration's draws.
      IMGA.py:67-92. *)
  Record imga_draws := { in_epoch : nat -> list draw; completion : list nat; in_migration : nat -> nat -> list (Q * nat) }.

  (** IMGA.py:67-83.  Islands do not touch each other during an epoch, so only the order of the results
      depends on the schedule. *)
  Definition imga_step (D : imga_draws) (s : imga) : option imga :=
    match collect (map (fun kd => epoch (in_epoch D (fst kd)) (snd kd) None)
                       (combine (seq 0 (length (imga_drivers s))) (imga_drivers s))) with
    | None => None
    | Some results =>
        let last_result := map (fun k => nth k (map snd results) 0) (completion D) in
        match migration value admit f (imga_topology s) (in_migration D)
                (map (fun r => {| isl_inds := dinds (fst r); visa_office := []; all_refugees := [] |}) results) with
        | None => None
        | Some islands =>
            Some {| imga_topology := imga_topology s;
                    imga_drivers := map (fun ri => dset (fst (fst ri)) (isl_inds (snd ri))) (combine results islands);
                    imga_cost := fold_left Nat.add last_result 0 |}
        end
    end.

  (** IMGA.py:67-83, any number of steps. *)
  Fixpoint imga_steps (Ds : list imga_draws) (s : imga) : option imga :=
    match Ds with
    | [] => Some s
    | D :: Ds' => match imga_step D s with None => None | Some s' => imga_steps Ds' s' end
    end.

  (** IMGA.py:62-65 *)
  Definition imga_final (s : imga) : option (list vec) :=
    match collect (map dfinal (imga_drivers s)) with
    | None => None
    | Some outs => Some (concat (map snd outs))
    end.

  (** IMGA.py:44-48, 112, 114-130; cost 0 as set by driver.py:33. *)
  Definition imga_init (topology : list (list nat)) (islands_number : nat) (population : list vec) : option imga :=
    match create_islands islands_number population with
    | None => None
    | Some subpopulations =>
        match collect (map dinit subpopulations) with
        | None => None
        | Some drivers => Some {| imga_topology := topology; imga_drivers := drivers; imga_cost := 0 |}
        end
    end.
End Run.
Arguments imga_topology {drv}. Arguments imga_drivers {drv}. Arguments imga_cost {drv}.
Arguments in_epoch {draw}. Arguments completion {draw}. Arguments in_migration {draw}.

(** IMGA over NSGA-II: the islands get no fitness archive (IMGA.py:119-128). *)
Definition nsga_imga_step (P : params) := imga_step nstate step_draws indiv iv (fun i => i) (step P) cost individuals with_individuals (p_f P).
(** IMGA.py:67-83 over NSGAII.py:88-99. *)
Definition nsga_imga_steps (P : params) := imga_steps nstate step_draws indiv iv (fun i => i) (step P) cost individuals with_individuals (p_f P).
(** IMGA.py:62-65 over NSGAII.py:72-86. *)
Definition nsga_imga_final (P : params) := imga_final nstate (finish P).
(** IMGA.py:44-48, 119-128 over NSGAII.py:53-66. *)
Definition nsga_imga_init (P : params) (mating : nat -> nat) := imga_init nstate (fun population => Some (init P mating None population)).
