(** Specification vocabulary for IMGA over the drivers it is configured with. *)
From Coq Require Import QArith.
From Verif Require Import Spec VarModel NsgaModel ImgaModel ImgaSpec ImgaRunModel ImgaDriversModel.
Local Open Scope nat_scope.

(** A call IMGA's user may make: a population within the bounds with at least one vector per island, the islands on a torus, at least
    one step per epoch, [migrants] emigrants at a time; and what the random choices may be. *)
Record proper_imga {draw : Type} (b : box) (width islands migrants epoch_length : nat) (pop : list vec) (topology : list (list nat)) (Ds : list (@imga_draws draw)) : Prop := {
  pi_box : Forall (in_box b) pop;
  pi_width : 1 <= width;
  pi_islands : 1 <= islands <= length pop;
  pi_epoch : 1 <= epoch_length;
  pi_torus : exists t, torus width islands = Some t /\ same_sets t topology;
  pi_draws : Forall (fun D => (forall k, length (in_epoch D k) = epoch_length) /\ Permutation (completion D) (seq 0 islands) /\
                              (forall i j, Forall draw_ok (in_migration D i j) /\ length (in_migration D i j) = migrants)) Ds
}.

(** What is expected of an island that was given [N] vectors: how many individuals it may have between steps, and how many vectors it
    may return and what it may have spent after [T] steps of its driver. *)
Record expectation := {
  fewest : nat;                           (* vectors per island, at least *)
  room : nat -> nat -> Prop;
  returned : nat -> nat -> nat -> Prop;
  spent : nat -> nat -> nat -> Prop
}.
(** An island that always has as many individuals as it was given vectors. *)
Definition constant_size (least : nat) (returns spends : nat -> nat -> nat -> Prop) : expectation :=
  {| fewest := least; room := fun N k => k = N; returned := returns; spent := spends |}.

Section Driver.
  Context {draw drv ind : Type}.
  Variable I : island_driver draw drv ind.
  Variable b : box.
  Variable f : vec -> vec.
  Variable X : expectation.

  (** There is room for the emigrants to up to four neighbours. *)
  Definition room_to_leave (islands migrants : nat) (pop : list vec) : Prop :=
    forall N k, length pop / islands <= N <= length pop / islands + 1 -> room X N k -> migrants * 4 <= k.

  Definition as_expected (T : nat) (pop : list vec) (s : imga drv) (out : list vec) : Prop :=
    Forall (in_box b) out /\
    exists sizes outs, list_sum sizes = length pop /\ out = concat outs /\
      Forall2 (fun N o => returned X T N (length o)) sizes outs /\
      Forall2 (fun N d => Forall (fun i => in_box b (i_value I i)) (i_inds I d) /\
                          (1 <= T -> room X N (length (i_inds I d))) /\ spent X T N (i_cost I d)) sizes (imga_drivers s) /\
      imga_cost s = (if T =? 0 then 0 else list_sum (map (i_cost I) (imga_drivers s))).

  (** IMGA over this driver never raises, and ends as expected. *)
  Definition safe_in_imga : Prop :=
    forall width islands migrants epoch_length pop topology Ds, proper_imga b width islands migrants epoch_length pop topology Ds ->
    fewest X * islands <= length pop -> room_to_leave islands migrants pop ->
    exists s0 s out, start_imga I topology islands pop = Some s0 /\ run_imga I f Ds s0 = Some s /\ result_imga I s = Some out /\
      as_expected (length Ds * epoch_length) pop s out.

  (** The same of the runs that end without raising. *)
  Definition sound_in_imga : Prop :=
    forall width islands migrants epoch_length pop topology Ds s0 s out, proper_imga b width islands migrants epoch_length pop topology Ds ->
    fewest X * islands <= length pop -> room_to_leave islands migrants pop ->
    start_imga I topology islands pop = Some s0 -> run_imga I f Ds s0 = Some s -> result_imga I s = Some out ->
    as_expected (length Ds * epoch_length) pop s out.

  Fixpoint island_steps (draws : list draw) (d : drv) : option drv :=
    match draws with
    | [] => Some d
    | x :: draws' => match i_step I x d with Some d' => island_steps draws' d' | None => None end
    end.
  (** An epoch of IMGA is the steps of every island's driver followed by one migration (C47), and its outcome is what the drivers
      then work with; newcomers keep their vectors. *)
  Definition epochs_then_migration : Prop :=
    (forall i, i_value I (i_admit I i) = i_value I i) /\
    forall D s s', run_imga I f [D] s = Some s' ->
    exists after, length after = length (imga_drivers s) /\
      (forall k d, nth_error (imga_drivers s) k = Some d -> exists d', nth_error after k = Some d' /\ island_steps (in_epoch D k) d = Some d') /\
      exists islands,
        migration (i_value I) (i_admit I) f (imga_topology s) (in_migration D)
          (map (fun d => {| isl_inds := i_inds I d; visa_office := []; all_refugees := [] |}) after) = Some islands /\
        map (i_inds I) (imga_drivers s') = map isl_inds islands /\ map (i_cost I) (imga_drivers s') = map (i_cost I) after /\
        imga_topology s' = imga_topology s.
End Driver.
