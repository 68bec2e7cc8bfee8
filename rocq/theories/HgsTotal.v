(** HGS does not raise: with a driver that keeps its contract, and with NSGA-II as that driver. *)
From Verif Require Import Spec Base VarModel VarProofs NDSortModel NDSortProofs NsgaModel NsgaProofs HgsModel HgsNsgaModel HgsSpec HgsProofs HgsRunProofs.
From Coq Require Import QArith.
Local Open Scope nat_scope.

Section Total.
  Variables drv draw : Type.
  Variable dnew : nat -> draw -> list vec -> option drv.
  Variable dstep : draw -> drv -> option drv.
  Variable dcost : drv -> Z.
  Variable dfinal : draw -> drv -> option (drv * list vec).
  Variable ddelegates : drv -> option (list vec).
  Variable hv_of : list vec -> Q.
  Variable raw : Z -> Z -> Z -> Z -> Z.
  Variable EPSILON : Q.
  Variable C : config.
  Variable least : nat.
  Variables good ready : drv -> Prop.
  Hypothesis Contract : driver_contract dnew dstep dfinal ddelegates (dims C) least good ready.
  Hypothesis Cfg : sound_config C.
  Hypothesis Enough : big_enough least C.
  Hypothesis Ready : (forall d, good d -> ready d) \/ makes_steps C.

  Lemma total_run sampling d mpr pop Ds : 3 <= length mpr -> Forall (in_box (dims C)) pop -> (forall size, nth_error (population_sizes C) 0 = Some size -> 1 <= size <= length pop) ->
    exists s0 s, hgs_init drv draw dnew C sampling d mpr pop = Ok s0 /\
      hgs_run drv draw dnew dstep dcost dfinal ddelegates hv_of raw EPSILON C Ds s0 = Ok s /\
      forall i n, node_at s i n -> good (driver n) /\ Forall (in_box (dims C)) (population n) /\ Forall (in_box (dims C)) (delegates n).
  Proof.
    intros Lm Hp Hs. destruct Cfg as (Vb & Cf). destruct Contract as [Cn Cs Cfi].
    assert (Hnew : forall lv x p, (False \/ exists size, nth_error (population_sizes C) lv = Some size /\ length p = Nat.max 1 size) -> Forall (in_box (dims C)) p -> wp False (of_option (dnew lv x p)) good).
    { intros lv x p [[]|(size & Z1 & Z2)] H2. apply nth_error_In in Z1. specialize (Enough size Z1). destruct (Cn lv x p ltac:(lia) ltac:(lia) H2) as (y & -> & G). exact G. }
    assert (Hmut : forall sel rnd rate v, in_box (dims C) v -> wp False (of_option (mutate raw sel rnd rate v (dims C))) (in_box (dims C))).
    { intros sel rnd rate v H. destruct (mutate_in_box raw sel rnd rate v (dims C) Vb H) as (y & -> & G). exact G. }
    assert (Hstep : forall x y, good y -> wp False (of_option (dstep x y)) (fun z => good z /\ ready z)) by (intros x y G; destruct (Cs x y G) as (z & -> & Gz); exact Gz).
    assert (Hfin : forall x y, good y -> ready y -> wp False (of_option (dfinal x y)) (fun r => good (fst r) /\ Forall (in_box (dims C)) (snd r) /\ wp False (of_option (ddelegates (fst r))) (Forall (in_box (dims C))))).
    { intros x y G R. destruct (Cfi x y G R) as (d' & p & dels & -> & G' & Fp & Ed & Fd). cbn. rewrite Ed. cbn. auto. }
    assert (Hc : False \/ (max_level C <= 2 /\ 3 <= length (metaepoch_lens C) /\ 3 <= length (cost_modifiers C) /\ 3 <= length (min_dists C) /\ 3 <= length (population_sizes C) /\ 3 <= length (mutation_rates C))) by (right; lia).
    destruct (wp_total _ _ (init_ok drv draw dnew C False good (in_box (dims C)) Hnew Hc sampling d mpr pop Hp (or_intror (conj Lm Hs)))) as (s0 & E0 & I0 & _).
    destruct (wp_total _ _ (run_ok drv draw dnew dstep dcost dfinal ddelegates hv_of raw EPSILON C False good ready (in_box (dims C)) Hnew Hmut Hstep Hfin Hc Ready Ds s0 I0)) as (s & E & I).
    exists s0, s. split; [exact E0|]. split; [exact E|]. intros i n H. destruct (i_base _ _ _ _ _ _ I i n H). auto.
  Qed.
End Total.

(** ---- NSGA-II inside HGS ---- *)
Section Nsga.
  Variable P : NsgaModel.params.
  Variable mating : nat -> nat.

  Notation first_front := (HgsNsgaModel.first_front P).
  Notation nd_new := (HgsNsgaModel.nd_new P mating).
  Notation nd_step := (HgsNsgaModel.nd_step P).
  Notation nd_final := (HgsNsgaModel.nd_final P).
  Hypothesis Hbox : valid_box (p_dims P).
  Hypothesis Htrim : forall v, in_box (p_dims P) v -> in_box (p_dims P) (p_trim P v).
  Hypothesis Hf : forall v, length (p_f P v) = p_m P.
  Hypothesis Hepsilon : (0 <= p_epsilon P)%Z.
  Hypothesis Heps : (0 < p_eps P)%Q.
  Hypothesis Hiter : forall x l, Permutation (p_iter P x l) l.

  Definition nd_good (d : nd) : Prop := (exists N M, 1 <= N /\ NsgaProofs.inv P N M (fst d)) /\ Forall (in_box (p_dims P)) (snd d).

  Lemma nsga_contract : driver_contract nd_new nd_step nd_final nd_delegates (p_dims P) 0 nd_good (fun _ => True).
  Proof.
    constructor.
    - intros lv x pop Ne _ H. eexists. split; [reflexivity|]. split; [|constructor]. cbn [fst].
      destruct (NsgaProofs.init_ok P Htrim mating None pop H ltac:(intros m k o X; discriminate X)) as (In & _). exists (length pop), (mating (length pop)). split; [exact Ne | exact In].
    - intros D (s & f) ((N & M & HN & Hi) & Hff). destruct (NsgaProofs.step_ok P Hbox Htrim Hf Hepsilon Heps Hiter N M D s HN Hi) as (s' & E & Hi' & _).
      exists (s', f). unfold HgsNsgaModel.nd_step. cbn [fst snd]. rewrite E. split; [reflexivity|]. split; [split; [exists N, M; auto | exact Hff] | exact I].
    - intros D (s & f) ((N & M & HN & Hi) & Hff) _. destruct (finish_ok P Hf Heps Hiter N M s Hi) as (s' & out & E & Hi' & _ & _ & Fo & _).
      assert (Hi0 := Hi). destruct Hi0 as (Hg & _ & _ & _ & Har & _).
      destruct (calculate_objectives_ok P s Har (good_cached P _ Hg) (good_box P _ Hg)) as (Hg1 & _).
      set (s1 := calculate_objectives P s) in *.
      assert (Hd : all_dim (p_m P) (obj_at (individuals s1)) (seq 0 (length (individuals s1)))).
      { intros x Hx. apply in_seq in Hx. destruct (nth_error (individuals s1) x) as [ind|] eqn:X; [rewrite (obj_at_good P _ _ ind Hg1 X); apply Hf | apply nth_error_None in X; lia]. }
      destruct (nsgaii_nd_sort_ok _ (p_m P) (p_iter P) _ Hiter (seq_NoDup _ _) Hd) as (fs & Hfs & HP & _).
      assert (Ff : exists dels, first_front s = Some dels /\ Forall (in_box (p_dims P)) dels).
      { unfold HgsNsgaModel.first_front. fold s1. rewrite Hfs. destruct fs as [|f1 fs]; [exists []; split; [reflexivity | constructor]|].
        destruct (select_positions_ok (individuals s1) f1) as (r & Hr & _ & Incl).
        - apply Forall_forall. intros x Hx. assert (Q : In x (seq 0 (length (individuals s1)))) by (eapply Permutation_in; [exact HP | cbn [concat]; apply in_or_app; now left]). apply in_seq in Q. lia.
        - rewrite Hr. eexists. split; [reflexivity|]. apply Forall_forall. intros v Hv. apply in_map_iff in Hv. destruct Hv as (ind & <- & Hin). rewrite Forall_forall in Hg1. now destruct (Hg1 ind (Incl ind Hin)). }
      destruct Ff as (dels & Ef & Fd). exists (s', dels), out, dels. unfold HgsNsgaModel.nd_final. cbn [fst]. rewrite Ef, E. split; [reflexivity|]. split; [split; [exists N, M; auto | exact Fd]|]. split; [exact Fo|]. split; [reflexivity | exact Fd].
  Qed.
End Nsga.
