(** Specification vocabulary for NSGA-III. *)
From Verif Require Import Spec VarModel NsgaModel NslsSpec NslsModel Nsga3Model.
From Coq Require Import Reals.
Local Open Scope nat_scope.

(** [x] is the smallest value of objective [j] among the vectors [seen]. *)
Definition least_value (f : vec -> vec) (seen : list vec) (j : nat) (x : Z) : Prop :=
  (exists v, In v seen /\ nth_error (f v) j = Some x) /\
  (forall v y, In v seen -> nth_error (f v) j = Some y -> (x <= y)%Z).

(** A point of the unit simplex in [m] dimensions. *)
Definition on_simplex (m : nat) (p : list R) : Prop :=
  length p = m /\ Forall (fun x => (0 <= x)%R) p /\ fold_right Rplus 0%R p = 1%R.

(** The squared distance from [n] to the point [t * r]. *)
Fixpoint sq_dist_to (n : list R) (t : R) (r : list R) : R :=
  match n, r with a :: n', b :: r' => (Rsqr (a - t * b) + sq_dist_to n' t r')%R | _, _ => 0%R end.

(** [d] is the distance from [n] to the line through the origin and [r]. *)
Definition line_distance (n r : list R) (d : R) : Prop :=
  (0 <= d)%R /\ (exists t, Rsqr d = sq_dist_to n t r) /\ forall t, (Rsqr d <= sq_dist_to n t r)%R.

(** [fronts] splits the numbers below [n] into fronts for the relation [better]: each front holds
    exactly the numbers, not in an earlier front, that nothing outside the earlier fronts beats. *)
Definition fronts_by (better : nat -> nat -> Prop) (n : nat) (fronts : list (list nat)) : Prop :=
  Permutation (concat fronts) (seq 0 n) /\
  Forall (fun front => front <> []) fronts /\
  forall k front i, nth_error fronts k = Some front ->
    (In i front <-> i < n /\ ~ In i (concat (firstn k fronts)) /\
       forall j, j < n -> ~ In j (concat (firstn k fronts)) -> ~ better j i).

(** What is assumed of a problem and of the constructor's arguments: a valid box, a trim function
    that keeps vectors in the box and changes nothing when applied again, [p_m] >= 1 objectives,
    EPSILON > 0; Python's set iteration lists the members of the set. *)
Definition n3_setting (P : params) : Prop :=
  valid_box (p_dims P) /\ (forall v, in_box (p_dims P) v -> in_box (p_dims P) (p_trim P v)) /\
  (forall v, p_trim P (p_trim P v) = p_trim P v) /\ (forall v, length (p_f P v) = p_m P) /\
  1 <= p_m P /\ (0 < p_epsilon P)%Z /\ (forall x l, Permutation (p_iter P x l) l).

(** And of the draws: random.choice picks existing individuals and random.sample is a sample. *)
Definition n3_draws_ok (n : nat) (D : n3_draws) : Prop :=
  (forall k, k < n / 2 -> fst (n3_pick D k) < n /\ snd (n3_pick D k) < n) /\ is_sample (n3_sample D).

(** [s] is reached from the population by the steps [Ds]. *)
Definition n3_reaches (P : params) (theta : R) (ar : option (list (vec * vec))) (population : list vec) (Ds : list n3_draws) (s : n3_state) : Prop :=
  exists rands fuel s0, (forall k i, (0 < rands k i < 1)%R) /\
    (forall m k o, ar = Some m -> lookup k m = Some o -> o = p_f P k) /\ Forall (in_box (p_dims P)) population /\
    Forall (n3_draws_ok (length population)) Ds /\ 2 * length population <= fuel /\
    n3_init P rands ar population = Some s0 /\ n3_steps P theta fuel Ds s0 = Done s.
