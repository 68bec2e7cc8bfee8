(** Property theorems C33, C34 and C78-C80: IBEA. *)
From Verif Require Import Spec IbeaSpec DomModel DomProofs VarModel NsgaModel IbeaModel IbeaProofs.
From Coq Require Import Reals Lra.
Local Open Scope nat_scope.

(** C33 - [objv x] is the objective vector of individual x.  [I] is the epsilon indicator on
    normalised objectives, [c] its largest magnitude, [rs] the individuals removed, in order. *)
Theorem C33_incremental_fitness :
  forall (eps kappa : R) (m : nat) (objv : nat -> vec) (size : nat) (inds : list nat),
    1 <= m -> inds <> [] -> NoDup inds ->
    exists surv fit rs I c, select eps kappa m objv size inds = Some (surv, fit, rs) /\
      (forall x y, In x inds -> In y inds ->
         additive_epsilon eps m (fun j z => nth j (objv z) 0%Z) inds x y (I x y)) /\
      (exists x y, In x inds /\ In y inds /\ c = Rabs (I x y)) /\
      (forall x y, In x inds -> In y inds -> (Rabs (I x y) <= c)%R) /\
      (let w x y := exp (- (I x y / Rabs (c * kappa + eps)))%R in
       removals w inds rs surv /\
       (forall x, In x surv -> fit x = indicator_fitness w surv x)) /\
      length surv = Nat.min size (length inds) /\ NoDup surv /\ incl surv inds.
Proof. exact select_spec. Qed.
Print Assumptions C33_incremental_fitness.

(** The specification of the indicator determines its value. *)
Theorem C33_indicator_unique :
  forall eps m o S x y v v',
    additive_epsilon eps m o S x y v -> additive_epsilon eps m o S x y v' -> v = v'.
Proof. exact additive_epsilon_unique. Qed.
Print Assumptions C33_indicator_unique.

Definition ex_objv (x : nat) : vec := nth x [[0; 4]; [1; 1]; [4; 0]; [3; 3]]%Z [].
Example C33_example : 1 <= 2 /\ seq 0 4 <> [] /\ NoDup (seq 0 4) /\ all_dim 2 ex_objv (seq 0 4) /\
  pareto_dom (ex_objv 1) (ex_objv 3).
Proof.
  split; [lia|]. split; [discriminate|]. split; [apply seq_NoDup|].
  split; [intros x Hx; repeat (destruct Hx as [<-|Hx]; [reflexivity|]); destruct Hx|].
  split; [repeat constructor; lia|]. exists 0, 1%Z, 3%Z. cbn. repeat split; lia.
Qed.

(** C78 - no individual is removed while one it dominates survives. *)
Theorem C78_survivors_not_dominated_by_removed :
  forall (eps kappa : R) (m : nat) (objv : nat -> vec) (size : nat) (inds : list nat),
    1 <= m -> inds <> [] -> NoDup inds -> (0 < eps)%R -> (0 <= kappa)%R -> all_dim m objv inds ->
    exists surv fit rs, select eps kappa m objv size inds = Some (surv, fit, rs) /\
      Permutation inds (rs ++ surv) /\
      forall r s, In r rs -> In s surv -> ~ pareto_dom (objv r) (objv s).
Proof. exact select_keeps_dominating. Qed.
Print Assumptions C78_survivors_not_dominated_by_removed.

(** Individual 1 dominates individual 3; three places for four: one is removed, and if it is 1 it is not for 3. *)
Example C78_example : all_dim 2 ex_objv (seq 0 4) /\ pareto_dom (ex_objv 1) (ex_objv 3) /\
  exists surv fit rs, select 1 1 2 ex_objv 3 (seq 0 4) = Some (surv, fit, rs) /\ length surv = 3 /\ length rs = 1 /\ rs <> [1].
Proof.
  destruct C33_example as (H1 & H2 & H3 & H4 & H5). split; [exact H4|]. split; [exact H5|].
  destruct (select_spec 1 1 2 ex_objv 3 (seq 0 4) H1 H2 H3) as (surv & fit & rs & _ & _ & E & _ & _ & _ & _ & L & _).
  destruct (select_keeps_dominating 1 1 2 ex_objv 3 (seq 0 4) H1 H2 H3 ltac:(lra) ltac:(lra) H4) as (surv' & fit' & rs' & E' & P & D).
  rewrite E in E'. injection E' as <- <- <-. exists surv, fit, rs. split; [exact E|]. cbn in L. split; [exact L|].
  pose proof (Permutation_length P) as LP. rewrite app_length in LP. cbn in LP. split; [lia|].
  intros ->. apply (D 1 3); [now left| |exact H5].
  assert (I : In 3 ([1] ++ surv)) by (apply (Permutation_in _ P); cbn; tauto). destruct I as [I|I]; [discriminate|exact I].
Qed.

Lemma in_archive_iff fa v : in_archive fa v = true <-> archived fa v.
Proof.
  unfold in_archive, archived. destruct fa as [m|].
  - split.
    + intro H. exists m. induction m as [|[k o] m IH]; cbn [lookup] in H; [discriminate|].
      destruct (vec_eqb v k) eqn:E; [apply DomProofs.vec_eqb_spec in E; subst; exists o; split; [reflexivity|now left]|].
      destruct (IH H) as (o' & _ & Hin). exists o'. split; [reflexivity|now right].
    + intros (m' & o & [= <-] & Hin). induction m as [|[k o'] m IH]; [destruct Hin|]. cbn [lookup].
      destruct (vec_eqb v k) eqn:E; [reflexivity|]. apply IH. destruct Hin as [[= -> ->]|Hin]; [|exact Hin].
      exfalso. rewrite (proj2 (DomProofs.vec_eqb_spec v v) eq_refl) in E. discriminate.
  - split; [discriminate|]. intros (m & o & H & _). discriminate.
Qed.

(** C34 - each scaling round charges exactly the individuals that are unknown or missing from
    the fitness archive, and marks all as known. *)
Theorem C34_charged_individuals_partial :
  forall (fa : option (list (vec * vec))) (s : ibea_state),
    exists charged newly,
      (forall i, charged i = true <-> ib_known i = false \/ ~ archived fa (ib_v i)) /\
      newly = filter charged (ib_individuals s) /\
      ib_individuals (scale_objectives fa s) = map (fun i => mk_ibea (ib_v i) true) (ib_individuals s) /\
      ib_charged (scale_objectives fa s) = ib_charged s ++ newly /\
      ib_cost (scale_objectives fa s) = ib_cost s + length newly /\
      ib_size (scale_objectives fa s) = ib_size s /\ ib_mating (scale_objectives fa s) = ib_mating s.
Proof.
  intros fa s. destruct (scale_objectives_spec fa s) as (newly & E & H).
  exists (fun i => negb (ib_known i) || negb (in_archive fa (ib_v i))), newly. split; [|split; [exact E|exact H]].
  intro i. rewrite Bool.orb_true_iff, !Bool.negb_true_iff. rewrite <- in_archive_iff, Bool.not_true_iff_false. reflexivity.
Qed.
Print Assumptions C34_charged_individuals_partial.

(** One unknown individual, one known and archived, one known but not archived: the first and the last are charged. *)
Example C34_example :
  ib_charged (scale_objectives (Some [([2], [0; 0])]%Z)
    {| ib_individuals := [mk_ibea [1]%Z false; mk_ibea [2]%Z true; mk_ibea [3]%Z true]; ib_charged := []; ib_cost := 7; ib_size := 3; ib_mating := 1 |}) =
  [mk_ibea [1]%Z false; mk_ibea [3]%Z true] /\
  ib_cost (scale_objectives (Some [([2], [0; 0])]%Z)
    {| ib_individuals := [mk_ibea [1]%Z false; mk_ibea [2]%Z true; mk_ibea [3]%Z true]; ib_charged := []; ib_cost := 7; ib_size := 3; ib_mating := 1 |}) = 9.
Proof. split; vm_compute; reflexivity. Qed.

(** C80 - a run: [N] individuals, [M] offspring per step.  Without a fitness archive every
    individual present is charged in every round ([met] counts them); with an archive holding
    every vector of the box each individual is charged once. *)
Theorem C80_ibea_run :
  forall (P : ibea_params) (mating : nat -> nat) (population : list vec) (ops : list op),
    valid_box (p_dims (ip P)) ->
    (forall v, in_box (p_dims (ip P)) v -> in_box (p_dims (ip P)) (p_trim (ip P) v)) ->
    1 <= p_m (ip P) -> (0 <= p_epsilon (ip P))%Z ->
    Forall (in_box (p_dims (ip P))) population -> population <> [] ->
    let N := length population in let M := mating N in
    exists s, ibea_ops P (ibea_init P mating population) ops = Some s /\
      Forall (fun i => in_box (p_dims (ip P)) (ib_v i)) (ib_individuals s) /\
      ib_cost s = length (ib_charged s) /\
      N + steps_of ops * M <= ib_cost s <= N + met N M N ops /\
      (ip_fa P = None -> ib_cost s = N + met N M N ops) /\
      ((forall v, in_box (p_dims (ip P)) v -> archived (ip_fa P) v) -> ib_cost s = N + steps_of ops * M) /\
      exists s' out, ibea_finish P s = Some (s', out) /\ length out = N /\ Forall (in_box (p_dims (ip P))) out.
Proof.
  intros P mating population ops H1 H2 H3 H4 H5 H6 N M.
  destruct (ibea_run P mating population ops H1 H2 H3 H4 H5 H6) as (s & E & A & B & C & D & F & G).
  exists s. split; [exact E|]. split; [exact A|]. split; [exact B|]. split; [exact C|]. split; [exact D|]. split; [|exact G].
  intro Hv. apply F. intros v Hb. apply in_archive_iff, Hv, Hb.
Qed.
Print Assumptions C80_ibea_run.

Definition ibea_ex : ibea_params :=
  {| ip := {| p_dims := [(0, 10)]%Z; p_f := fun v => [nth 0 v 0; 10 - nth 0 v 0]%Z; p_m := 2; p_trim := fun v => v;
              p_crossover_rate := 5; p_mutation_rate := 5; p_raw := fun lb ub y r => (y + r)%Z;
              p_raw_a := fun lb ub y1 y2 r => (y1 - r)%Z; p_raw_b := fun lb ub y1 y2 r => (y2 + r)%Z;
              p_half := 5; p_epsilon := 0; p_eps := QArith_base.Qmake 1 1000; p_iter := fun _ l => l |};
     ip_eps := 1; ip_kappa := 1; ip_fa := None |}.

(** The hypotheses hold for it; three individuals, one offspring per step. *)
Example C80_example : valid_box (p_dims (ip ibea_ex)) /\ 1 <= p_m (ip ibea_ex) /\
  Forall (in_box (p_dims (ip ibea_ex))) [[1]; [2]; [3]]%Z /\
  forall D, met 3 1 3 [Step D; Step D; Finalize] = 4 + (4 + 4).
Proof. split; [repeat constructor; cbn; lia|]. split; [cbn; lia|]. split; [repeat constructor; cbn; lia | reflexivity]. Qed.

(** C34 is false: finalising a fresh driver charges every individual a second time. *)
Theorem C34_known_individuals_charged_again_refuted :
  exists (P : ibea_params) (population : list vec) (s : ibea_state) (i : ind_ibea),
    let s0 := ibea_init P (fun n => n) population in
    ibea_op P s0 Finalize = Some s /\
    In i (ib_charged s) /\ ib_known i = true /\ ib_cost s = 2 * length population.
Proof.
  destruct (ibea_run ibea_ex (fun n => n) [[1]; [2]; [3]]%Z [Finalize]) as (s & E & _ & _ & _ & Hc & _).
  - repeat constructor; cbn; lia.
  - auto.
  - cbn. lia.
  - cbn. lia.
  - repeat constructor; cbn; lia.
  - discriminate.
  - specialize (Hc eq_refl). cbn [met length] in Hc.
    exists ibea_ex, [[1]; [2]; [3]]%Z, s, (mk_ibea [1]%Z true). cbv zeta. cbn [ibea_ops] in E.
    destruct (ibea_op ibea_ex (ibea_init ibea_ex (fun n => n) [[1]; [2]; [3]]%Z) Finalize) as [s'|] eqn:E'; [|discriminate].
    injection E as ->. split; [reflexivity|]. split; [|split; [reflexivity|exact Hc]].
    cbn [ibea_op] in E'. unfold ibea_finish in E'.
    destruct (ibea_select _ _) as [[surv fit]|]; [|discriminate]. injection E' as <-. cbn. tauto.
Qed.
Print Assumptions C34_known_individuals_charged_again_refuted.

(** C79 - the mating tournament: heads (probability 0.9) takes the strictly less fit of the two,
    tails the strictly fitter; ties give the second. *)
Theorem C79_tournament_partial :
  forall (fitness : nat -> R) (x1 x2 : nat),
    (better fitness true x1 x2 = x1 \/ better fitness true x1 x2 = x2) /\
    (fitness (better fitness true x1 x2) = Rmin (fitness x1) (fitness x2)) /\
    (fitness (better fitness false x1 x2) = Rmax (fitness x1) (fitness x2)).
Proof. exact better_spec. Qed.
Print Assumptions C79_tournament_partial.

Example C79_example : better INR true 3 1 = 1 /\ better INR true 1 3 = 1 /\ better INR false 3 1 = 3.
Proof. unfold better. repeat split; repeat match goal with |- context [Rlt_dec ?a ?b] => destruct (Rlt_dec a b) end; cbn [INR] in *; first [reflexivity | lra]. Qed.

(** So heads never returns the fitter individual of two different ones. *)
Theorem C79_tournament_favours_the_fitter_refuted :
  exists (fitness : nat -> R) (x1 x2 : nat),
    (fitness x2 < fitness x1)%R /\ better fitness true x1 x2 = x2 /\ better fitness true x2 x1 = x2.
Proof.
  exists INR, 1, 0. unfold better. cbn [INR]. split; [lra|].
  destruct (Rlt_dec 1 0); [lra|]. destruct (Rlt_dec 0 1); [auto | lra].
Qed.
Print Assumptions C79_tournament_favours_the_fitter_refuted.
