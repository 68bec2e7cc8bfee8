(** C167: a coordinate that all particles of OMOPSO share is never left. *)
From Verif Require Import Spec DomModel SortModel VarModel NsgaModel SpeaModel SmsModel MetModel OmopsoModel OmopsoProofs.
From Coq Require Import QArith.
Local Open Scope nat_scope.

Lemma comprehension_all {A B} (f : A -> option B) (I : A -> Prop) (J : B -> Prop) : forall l r,
  comprehension f l = Some r -> (forall x y, I x -> f x = Some y -> J y) -> Forall I l -> Forall J r.
Proof.
  induction l as [|a l IH]; intros r E H F; cbn [comprehension] in E; [injection E as <-; constructor|].
  inversion F; subst. destruct (f a) as [y|] eqn:Ea; [|discriminate]. destruct (comprehension f l) as [r'|] eqn:El; [|discriminate].
  injection E as <-. constructor; [eapply H; eauto | eapply IH; eauto].
Qed.

Section Shared.
Variable j : nat.
Variable c : Z.
Definition at_c (v : vec) : Prop := nth_error v j = Some c.
Definition leader_at (l : leader) : Prop := at_c (l_value l).

Lemma scan_at en ed p : leader_at p -> forall n rest kept l b, length rest <= n -> Forall leader_at rest -> Forall leader_at kept ->
  scan en ed p kept rest = Some (l, b) -> Forall leader_at l.
Proof.
  intros Hp. induction n as [|n IH]; intros rest kept l b L Fr Fk E.
  - destruct rest; [|cbn in L; lia]. cbn in E. injection E as <- <-. apply Forall_app. auto.
  - destruct rest as [|x rest]; cbn [scan] in E; [injection E as <- <-; apply Forall_app; auto|].
    inversion Fr as [|? ? Fx Fr']; subst. cbn [length] in L.
    destruct (omopso_dominates en ed (l_objs x) (l_objs p)) as [[|]|]; [injection E as <- <-; apply Forall_app; auto | | discriminate].
    destruct (omopso_dominates en ed (l_objs p) (l_objs x)) as [[|]|]; [| |discriminate].
    + destruct rest as [|y rest]; [injection E as <- <-; apply Forall_app; auto|]. inversion Fr' as [|? ? Fy Fr'']; subst. cbn [length] in L.
      eapply IH; [| exact Fr'' | | exact E]; [lia | apply Forall_app; auto].
    + destruct (equal_obj (l_objs x) (l_objs p)) as [[|]|]; [injection E as <- <-; apply Forall_app; auto | | discriminate].
      eapply IH; [| exact Fr' | | exact E]; [lia | apply Forall_app; auto].
Qed.
Lemma crowding_at l l' : crowding l = Some l' -> Forall leader_at l -> Forall leader_at l'.
Proof.
  unfold crowding. destruct l as [|x r]; [discriminate|]. set (l := x :: r). destruct (existsb _ l); [discriminate|]. intros E F.
  apply (f_equal (fun o => match o with Some z => z | None => [] end)) in E. cbv beta iota in E. rewrite <- E. apply Forall_forall. intros y Hy.
  destruct (perm_core_In _ _ y (crowd_fold_core (seq 0 (length (l_objs x))) (map (set_crowd (Some 0%Q)) l)) Hy) as (z & Hz & Ez).
  apply in_map_iff in Hz. destruct Hz as (w & <- & Hw). rewrite Forall_forall in F. specialize (F w Hw). unfold leader_at in *.
  apply (f_equal fst) in Ez. unfold core in Ez. cbn [fst set_crowd l_value] in Ez. now rewrite <- Ez.
Qed.
Lemma leader_add_at size l p l' b : leader_at p -> Forall leader_at l -> leader_add size l p = Some (l', b) -> Forall leader_at l'.
Proof.
  intros Hp F. unfold leader_add. destruct (archive_add 0 1 l p) as [(l1, b1)|] eqn:E; [|discriminate].
  assert (F1 : Forall leader_at l1) by (eapply scan_at; [exact Hp | apply le_n | exact F | constructor | exact E]).
  destruct (b1 && (size <? length l1)); [|intros H; injection H as <- <-; exact F1].
  destruct (prune l1) as [l2|] eqn:Ep; [|discriminate]. intros H. injection H as <- <-. unfold prune in Ep.
  destruct (crowding l1) as [l3|] eqn:Ec; [|discriminate]. pose proof (crowding_at _ _ Ec F1) as F3.
  destruct l3 as [|y r]; [discriminate|]. set (w := max_crowd 1 0 y r) in *. injection Ep as <-.
  apply Forall_forall. intros z Hz. rewrite Forall_forall in F3. apply F3. apply in_app_iff in Hz.
  rewrite <- (firstn_skipn w (y :: r)). apply in_app_iff. destruct Hz as [Hz|Hz]; [now left | right].
  destruct (skipn w (y :: r)) as [|u us] eqn:Es.
  - exfalso. assert (length (skipn (S w) (y :: r)) = 0) as L0 by (rewrite skipn_length; assert (length (skipn w (y :: r)) = 0) as L1 by (rewrite Es; reflexivity); rewrite skipn_length in L1; lia).
    change (In z (skipn (S w) (y :: r))) in Hz. destruct (skipn (S w) (y :: r)); [destruct Hz | discriminate].
  - change (In z (skipn (1 + w) (y :: r))) in Hz.
    assert (G : forall {A} (k : nat) (q : list A), skipn (1 + k) q = skipn 1 (skipn k q)) by (intros A k; induction k as [|k IHk]; intros [|? ?]; try reflexivity; apply IHk).
    rewrite G, Es in Hz. cbn [skipn] in Hz. now right.
Qed.
Definition particle_at (p : particle) : Prop :=
  at_c (value p) /\ nth_error (speed p) j = Some 0%Z /\ Forall (fun b => at_c (fst b)) (bests p).
Lemma update_leaders_at size en ed : forall ps acc r, Forall particle_at ps -> Forall leader_at (fst acc) -> Forall leader_at (snd acc) ->
  update_leaders size en ed ps acc = Some r -> Forall leader_at (fst r) /\ Forall leader_at (snd r).
Proof.
  induction ps as [|p ps IH]; intros acc r Fp F1 F2 E; cbn [update_leaders] in E; [injection E as <-; auto|].
  inversion Fp as [|? ? Hp Fp']; subst. assert (Lp : leader_at (as_leader p)) by apply Hp.
  destruct (leader_add size (fst acc) (as_leader p)) as [(l, [|])|] eqn:El; [| |discriminate].
  - destruct (archive_add en ed (snd acc) (as_leader p)) as [(a, b)|] eqn:Ea; [|discriminate].
    eapply IH; [exact Fp' | | | exact E]; cbn [fst snd]; [exact (leader_add_at _ _ _ _ _ Lp F1 El)|].
    eapply scan_at; [exact Lp | apply le_n | exact F2 | constructor | exact Ea].
  - eapply IH; [exact Fp' | | | exact E]; cbn [fst snd]; [exact (leader_add_at _ _ _ _ _ Lp F1 El) | exact F2].
Qed.
Lemma choose_leader_in leaders pick g : choose_leader leaders pick = Some g -> In g leaders.
Proof.
  unfold choose_leader. destruct (1 <? length leaders); [|intros E; exact (nth_error_In _ _ E)].
  destruct (nth_error leaders (fst pick)) as [a|] eqn:Ea; [|discriminate]. destruct (nth_error leaders (snd pick)) as [b|] eqn:Eb; [|discriminate].
  intros E. injection E as <-. destruct (crowd_lt _ _); eapply nth_error_In; eauto.
Qed.
Lemma new_speed_at f : forall n i q s b v g r, new_speed f n q s b v g = Some r -> i < n ->
  nth_error s i = Some 0%Z -> nth_error b i = Some c -> nth_error v i = Some c -> nth_error g i = Some c ->
  nth_error r i = Some (f (q + i) 0%Z c c c).
Proof.
  induction n as [|n IH]; intros i q s b v g r E Hi Hs Hb Hv Hg; [lia|]. cbn [new_speed] in E.
  destruct s as [|s0 s], b as [|b0 b], v as [|v0 v], g as [|g0 g]; try discriminate.
  destruct (new_speed f n (S q) s b v g) as [r'|] eqn:E'; [|discriminate]. injection E as <-.
  destruct i as [|i]; cbn [nth_error] in *; [rewrite Nat.add_0_r; congruence|]. rewrite <- Nat.add_succ_comm. eapply IH; eauto. lia.
Qed.
Lemma move_at lb ub : (lb <= c <= ub)%Z -> forall dims i v s v' s', move dims v s = Some (v', s') -> nth_error dims i = Some (lb, ub) ->
  nth_error v i = Some c -> nth_error s i = Some 0%Z -> nth_error v' i = Some c /\ nth_error s' i = Some 0%Z.
Proof.
  intros Hc. induction dims as [|(a, b) dims IH]; intros i v s v' s' E Hd Hv Hs; [destruct i; discriminate|].
  unfold move in *. cbn [move_loop] in E. destruct v as [|x v], s as [|y s]; try discriminate.
  destruct (move_loop dims v s) as [(vs, ss)|] eqn:E'; [|discriminate]. injection E as <- <-. destruct i as [|i]; cbn [nth_error] in *.
  - injection Hd as -> ->. injection Hv as ->. injection Hs as ->. rewrite Z.add_0_r, Z.max_l, Z.min_l, Z.eqb_refl by lia. auto.
  - eapply IH; eauto.
Qed.
End Shared.

(** If all vectors of the initial population have the same value [c] in coordinate [j], then, whatever the draws, all
    particles and all results have it after any number of steps: no mutation takes place.  The last hypothesis on the
    speed holds for the formula of the code, W * 0 + C1 * r1 * (c - c) + C2 * r2 * (c - c). *)
Theorem C167_shared_coordinate_refuted :
  forall (P : params) (en ed : Z) (fa : option (list (vec * vec))) (population : list vec) (Ds : list om_draws) (s0 s : om_state)
         (j : nat) (c lb ub : Z),
    nth_error (p_dims P) j = Some (lb, ub) -> (lb <= c <= ub)%Z ->
    (forall v, In v population -> nth_error v j = Some c) ->
    (forall v, nth_error v j = Some c -> nth_error (p_trim P v) j = Some c) ->
    (forall D k, In D Ds -> om_speed D k j 0%Z c c c = 0%Z) ->
    om_init P en ed fa population = Some s0 -> om_steps P en ed fa Ds s0 = Some s ->
    (forall p, In p (om_particles s) -> nth_error (value p) j = Some c) /\
    (forall v, In v (om_finalized s) -> nth_error v j = Some c).
Proof.
  intros P en ed fa population Ds s0 s j c lb ub Hd Hc Hp Ht Hs E0 E.
  set (inv := fun s => Forall (particle_at j c) (om_particles s) /\ Forall (leader_at j c) (om_leaders s) /\ Forall (leader_at j c) (om_archive s)).
  assert (Ev : forall ps tr r, Forall (particle_at j c) ps -> om_evaluate P fa ps tr = r -> Forall (particle_at j c) (fst r)).
  { intros ps tr r F <-. unfold om_evaluate. destruct (sms_objectives _ _ _ _ _) as (ms, ct). cbn [fst]. apply Forall_forall.
    intros q Hq. apply in_map_iff in Hq. destruct Hq as ((p, m) & <- & Hq). apply in_combine_l in Hq. rewrite Forall_forall in F. exact (F p Hq). }
  assert (Rb : forall p, particle_at j c p -> particle_at j c (record_best p)).
  { intros p (A & B & C). split; [exact A|]. split; [exact B|]. cbn [record_best bests]. constructor; [exact A | exact C]. }
  assert (I0 : inv s0).
  { unfold om_init in E0. set (ps := map _ population) in *.
    assert (F : Forall (particle_at j c) ps).
    { apply Forall_forall. intros p Hin. unfold ps in Hin. apply in_map_iff in Hin. destruct Hin as (v & <- & Hv).
      pose proof (Ht v (Hp v Hv)) as A. split; [exact A|]. split; [|constructor]. cbn [new_particle speed]. apply nth_error_repeat.
      apply nth_error_Some. congruence. }
    destruct (om_evaluate P fa ps []) as (ps3, (k, tr)) eqn:Ee. pose proof (Ev _ _ _ F Ee) as F3. cbn [fst] in F3.
    destruct (update_leaders (length population) en ed ps3 ([], [])) as [(L, A)|] eqn:El; [|discriminate].
    destruct (update_leaders_at j c _ _ _ _ ([], []) _ F3 (Forall_nil _) (Forall_nil _) El) as (FL & FA). cbn [fst snd] in FL, FA.
    destruct (crowding L) as [L'|] eqn:Ec; [|discriminate]. injection E0 as <-. split; [|split; [exact (crowding_at j c _ _ Ec FL) | exact FA]].
    cbn [om_particles]. apply Forall_forall. intros q Hq. apply in_map_iff in Hq. destruct Hq as (p & <- & Hq). apply Rb. rewrite Forall_forall in F3. auto. }
  assert (St : forall D s s', In D Ds -> inv s -> om_step P en ed fa D s = Some s' -> inv s').
  { intros D t t' HD (F & FL & FA) Es. unfold om_step in Es.
    destruct (comprehension (speed_up P D (om_leaders t)) _) as [ps1|] eqn:E1; [|discriminate].
    assert (F1 : Forall (particle_at j c) ps1).
    { eapply (comprehension_all _ (fun kp => particle_at j c (snd kp))); [exact E1 | |].
      - intros (k, p) q (A & B & C) Eq. cbn [snd] in *. unfold speed_up in Eq.
        destruct (choose_leader (om_leaders t) (om_pick D k)) as [g|] eqn:Eg; [|discriminate]. destruct (bests p) as [|(b, bo) bs] eqn:Eb; [discriminate|].
        destruct (new_speed _ _ _ _ _ _ _) as [sp|] eqn:En; [|discriminate]. injection Eq as <-. split; [exact A|]. cbn [speed bests].
        inversion C as [|? ? Cb Cs]; subst. split; [|now constructor].
        assert (Hg : leader_at j c g) by (rewrite Forall_forall in FL; apply FL; exact (choose_leader_in _ _ _ Eg)).
        rewrite (new_speed_at c _ _ j _ _ _ _ _ _ En ltac:(apply nth_error_Some; congruence) B Cb A Hg). cbn [Nat.add]. now rewrite Hs.
      - apply Forall_forall. intros (k, p) Hk. apply in_combine_r in Hk. rewrite Forall_forall in F. exact (F p Hk). }
    destruct (comprehension (moved_particle P) ps1) as [ps2|] eqn:E2; [|discriminate].
    assert (F2 : Forall (particle_at j c) ps2).
    { eapply (comprehension_all _ (particle_at j c)); [exact E2 | | exact F1]. intros p q (A & B & C) Eq. unfold moved_particle in Eq.
      destruct (move (p_dims P) (value p) (speed p)) as [(v, sp)|] eqn:Em; [|discriminate]. injection Eq as <-.
      destruct (move_at c lb ub Hc _ j _ _ _ _ Em Hd A B) as (A' & B'). split; [exact (Ht v A') | split; [exact B' | exact C]]. }
    destruct (om_evaluate P fa ps2 (om_evals t)) as (ps3, (k, tr)) eqn:Ee. pose proof (Ev _ _ _ F2 Ee) as F3. cbn [fst] in F3.
    destruct (update_leaders (om_size t) en ed ps3 (om_leaders t, om_archive t)) as [(L, A)|] eqn:El; [|discriminate].
    destruct (update_leaders_at j c _ _ _ _ (om_leaders t, om_archive t) _ F3 FL FA El) as (FL' & FA'). cbn [fst snd] in FL', FA'.
    destruct (comprehension update_best ps3) as [ps4|] eqn:E4; [|discriminate].
    destruct (crowding L) as [L'|] eqn:Ec; [|discriminate]. injection Es as <-. split; [|split; [exact (crowding_at j c _ _ Ec FL') | exact FA']].
    cbn [om_particles]. eapply (comprehension_all _ (particle_at j c)); [exact E4 | | exact F3]. intros p q Hpq Eq. unfold update_best in Eq.
    destruct (bests p) as [|(b, bo) bs] eqn:Eb; [discriminate|].
    destruct (omopso_dominates 0 1 (objectives p) bo) as [[|]|]; [injection Eq as <-; now apply Rb | injection Eq as <-; exact Hpq | discriminate]. }
  assert (I : inv s).
  { revert s0 E0 I0 E. clear Hp. intros s0 _. revert s0. induction Ds as [|D Ds IH]; intros t It E; cbn [om_steps] in E; [injection E as <-; exact It|].
    destruct (om_step P en ed fa D t) as [t'|] eqn:Et; [|discriminate]. eapply IH; [| | |exact E].
    - intros D' k HD. apply Hs. now right.
    - intros D' u u' HD. apply St. now right.
    - eapply St; [now left | exact It | exact Et]. }
  destruct I as (F & _ & FA). rewrite Forall_forall in F, FA. split.
  - intros p Hin. exact (proj1 (F p Hin)).
  - intros v Hv. unfold om_finalized in Hv. apply in_map_iff in Hv. destruct Hv as (l & <- & Hl). exact (FA l Hl).
Qed.
Print Assumptions C167_shared_coordinate_refuted.

(** Two particles that share their first coordinate, objectives |x| + |y| and |x| + |y - 4|, with the code's formula for
    W = 1/2 and C1 r1 = C2 r2 = 1: two steps move the second coordinate and leave the first, although 0 would be better. *)
Definition shared_ex : params :=
  {| p_dims := [(-10, 10)%Z; (-10, 10)%Z];
     p_f := fun v => let x := Z.abs (nth 0 v 0%Z) in let y := nth 1 v 0%Z in [x + Z.abs y; x + Z.abs (y - 4)]%Z; p_m := 2; p_trim := fun v => v;
     p_crossover_rate := 0%Z; p_mutation_rate := 0%Z;
     p_raw := fun _ _ _ _ => 0%Z; p_raw_a := fun _ _ _ _ _ => 0%Z; p_raw_b := fun _ _ _ _ _ => 0%Z;
     p_half := 0%Z; p_epsilon := 0%Z; p_eps := 0%Q; p_iter := fun _ l => l |}.
Definition shared_draws : om_draws := {| om_pick := fun _ => (0, 1); om_speed := fun _ _ s b v g => (s / 2 + (b - v) + (g - v))%Z |}.
Example C167_example :
  (forall k c, om_speed shared_draws k 0 0 c c c = 0%Z) /\
  match om_init shared_ex 75 10000 None [[7; 8]; [7; -4]]%Z with
  | None => False
  | Some s0 =>
      match om_steps shared_ex 75 10000 None [shared_draws; shared_draws] s0 with
      | None => False
      | Some s => Forall (fun p => hd_error (value p) = Some 7%Z) (om_particles s) /\ map value (om_particles s) <> [[7; 8]; [7; -4]]%Z
      end
  end.
Proof.
  split; [intros k c; cbn [om_speed shared_draws]; rewrite !Z.sub_diag; reflexivity|].
  vm_compute. split; [repeat constructor | discriminate].
Qed.
