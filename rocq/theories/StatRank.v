(** Proofs about the choice of the ranked result and about the ranking. *)
From Verif Require Import StatModel StatSpec StatProofs StatBoot SortProofs Base.
From Coq Require Import Lqa Qabs.
Local Open Scope Q_scope.

(** ** Choosing a result *)

Lemma fresh_unique r m d d' : fresh r -> has_metric r m d -> has_metric r m d' -> d = d'.
Proof.
  intros (_ & N & _). unfold has_metric. revert N. generalize (r_analysis r). intros l.
  induction l as [|[a x] l IH]; cbn; intros N H H'; [destruct H|].
  inversion N as [|? ? Ni Nl]; subst.
  destruct H as [H|H], H' as [H'|H']; try congruence; auto; exfalso; apply Ni.
  - injection H as -> ->. apply in_map_iff. exists (m, d'). auto.
  - injection H' as -> ->. apply in_map_iff. exists (m, d). auto.
Qed.

Lemma affordable_iff r costs rest m limit : fresh r -> r_analysis r = ("cost"%string, costs) :: rest ->
  is_mean costs m -> (affordable limit r <-> m <= limit).
Proof.
  intros F E M. assert (H : has_metric r "cost" costs) by (unfold has_metric; rewrite E; left; reflexivity).
  split.
  - intros (c & m' & Hc & Mc & L). pose proof (fresh_unique _ _ _ _ F H Hc) as <-.
    assert (costs <> []) by (destruct F as (_ & _ & F); apply (F _ _ H)).
    rewrite (is_mean_unique costs m m'); auto.
  - intros L. exists costs, m. auto.
Qed.

Section Find.
  Variables (boot_size : nat) (call : Type) (randint : call -> nat -> nat -> nat -> nat).
  Hypothesis boot_pos : (1 <= boot_size)%nat.
  Hypothesis draws : forall c, fair (randint c).

  Lemma validate_ok c r delta : fresh r ->
    exists costs rest m ok, r_analysis r = ("cost"%string, costs) :: rest /\ is_mean costs m
      /\ validate_cost boot_size call randint c r delta = Some (ok, rest)
      /\ (ok = true <-> affordable (r_budget r + delta) r).
  Proof.
    intros F. pose proof F as ((costs & rest & E) & _ & Ne).
    assert (N : costs <> []) by (apply (Ne "cost"%string); rewrite E; left; reflexivity).
    destruct (analysis_some (randint c) costs boot_size (draws c) N boot_pos) as (a & Ea).
    destruct (analysis_inv _ _ _ _ Ea) as (_ & q1 & q3 & I).
    destruct I as (_ & _ & _ & _ & _ & _ & _ & _ & _ & M & _ & _ & _ & B).
    exists costs, rest, (a_mean a), (Qle_bool (a_mean a) (r_budget r + delta)).
    split; [exact E|]. split; [exact M|]. split.
    - unfold validate_cost. rewrite E. cbn [validate_loop]. rewrite String.eqb_refl, Ea, B. reflexivity.
    - rewrite Qle_bool_iff, (affordable_iff r costs rest (a_mean a)); auto. reflexivity.
  Qed.

  Lemma find_loop_ok c T : forall rs delta prev, delta + prev == T -> (forall r, In r rs -> fresh r) ->
    (find_loop boot_size call randint c delta prev rs = Some None
     /\ forall r, In r rs -> ~ affordable T r)
    \/ (exists skipped r after costs rest,
          rs = (skipped ++ r :: after)%list
          /\ (forall r', In r' skipped -> ~ affordable T r') /\ affordable T r
          /\ r_analysis r = ("cost"%string, costs) :: rest
          /\ find_loop boot_size call randint c delta prev rs
             = Some (Some {| r_budget := r_budget r; r_analysis := rest |})).
  Proof.
    induction rs as [|r rs IH]; intros delta prev HT F.
    - left. split; [reflexivity|]. intros r [].
    - cbn [find_loop].
      destruct (validate_ok (c r) r (delta + (prev - r_budget r))) as (costs & rest & m & ok & E & M & V & O).
      { apply F. left. reflexivity. }
      rewrite V.
      assert (A : affordable (r_budget r + (delta + (prev - r_budget r))) r <-> affordable T r).
      { assert (Q : r_budget r + (delta + (prev - r_budget r)) == T) by lra.
        unfold affordable. split; intros (d & m' & H1 & H2 & H3); exists d, m'; repeat split; auto; lra. }
      rewrite A in O. destruct ok.
      + right. exists [], r, rs, costs, rest. split; [reflexivity|]. split; [intros r' []|].
        split; [apply O; reflexivity|]. split; [exact E|reflexivity].
      + assert (~ affordable T r) as NA by (intros H; apply O in H; discriminate).
        destruct (IH (delta + (prev - r_budget r)) (r_budget r)) as [[E' H]|H].
        * lra.
        * intros r' H. apply F. right. exact H.
        * left. split; [exact E'|]. intros r' [<-|H']; auto.
        * destruct H as (sk & r0 & af & co & re & E1 & E2 & E3 & E4 & E5).
          right. exists (r :: sk), r0, af, co, re. split; [cbn; congruence|]. split; [|auto].
          intros r' [<-|H']; auto.
  Qed.

  Lemma last_budget_unique rs b b' : last_budget rs b -> last_budget rs b' -> b = b'.
  Proof.
    intros (x & r & -> & <-) (x' & r' & E & <-). apply app_inj_tail in E. destruct E as [_ ->]. reflexivity.
  Qed.

  Lemma find_ok c rs : rs <> [] -> (forall r, In r rs -> fresh r) ->
    (find_acceptable boot_size call randint c rs = Some None
     /\ forall b r, last_budget rs b -> In r rs -> ~ affordable (b + 500) r)
    \/ (exists r costs rest, accepted rs r /\ r_analysis r = ("cost"%string, costs) :: rest
          /\ find_acceptable boot_size call randint c rs
             = Some (Some {| r_budget := r_budget r; r_analysis := rest |})).
  Proof.
    intros N F. unfold find_acceptable.
    destruct (rev rs) as [|lst rs'] eqn:R.
    { exfalso. apply N. rewrite <- (rev_involutive rs), R. reflexivity. }
    assert (E : rs = (rev rs' ++ [lst])%list) by (rewrite <- (rev_involutive rs), R; reflexivity).
    assert (LB : last_budget rs (r_budget lst)) by (exists (rev rs'), lst; auto).
    destruct (find_loop_ok c (r_budget lst + 500) (lst :: rs') 500 (r_budget lst)) as [[E1 H]|H].
    - lra.
    - intros r Hr. apply F. apply in_rev. rewrite R. exact Hr.
    - left. split; [exact E1|]. intros b r Hb Hr.
      rewrite (last_budget_unique _ _ _ Hb LB). apply H. rewrite <- R. apply in_rev in Hr. exact Hr.
    - right. destruct H as (sk & r & af & costs & rest & E1 & E2 & E3 & E4 & E5).
      exists r, costs, rest. split; [|auto].
      exists (r_budget lst), (rev af), (rev sk). split; [exact LB|]. split.
      + rewrite <- (rev_involutive rs), R, E1, rev_app_distr. cbn. rewrite <- app_assoc. reflexivity.
      + split; [exact E3|]. apply Forall_forall. intros r' Hr'. apply E2. apply in_rev. exact Hr'.
  Qed.
End Find.

Lemma split_unique {A} (P : A -> Prop) : forall before before' r r' after after',
  (before ++ r :: after)%list = (before' ++ r' :: after')%list -> P r -> P r' ->
  Forall (fun x => ~ P x) after -> Forall (fun x => ~ P x) after' -> r = r'.
Proof.
  induction before as [|x before IH]; intros [|x' before'] r r' after after' E Pr Pr' H H'; cbn in E.
  - congruence.
  - injection E as -> ->. exfalso. rewrite Forall_forall in H. apply (H r'); [|exact Pr'].
    apply in_or_app. right. left. reflexivity.
  - injection E as <- <-. exfalso. rewrite Forall_forall in H'. apply (H' r); [|exact Pr].
    apply in_or_app. right. left. reflexivity.
  - injection E as -> E. eapply IH; eauto.
Qed.

Lemma accepted_unique rs r r' : accepted rs r -> accepted rs r' -> r = r'.
Proof.
  intros (b & p & q & L & E & A & F) (b' & p' & q' & L' & E' & A' & F').
  assert (b = b') as <-.
  { destruct L as (x & u & -> & <-), L' as (x' & u' & E2 & <-).
    apply app_inj_tail in E2. destruct E2 as [_ ->]. reflexivity. }
  rewrite E in E'. eapply split_unique; eauto.
Qed.

Lemma accepted_in rs r : accepted rs r -> In r rs.
Proof. intros (b & p & q & _ & -> & _). apply in_or_app. right. left. reflexivity. Qed.

(** ** Weak winners *)

Lemma eps_pos : 0 < epsilon.
Proof. reflexivity. Qed.
Lemma eps_eq : machine_eps == epsilon.
Proof. reflexivity. Qed.

Lemma ratio_iff tol s t : 0 <= tol -> 0 <= s -> 0 <= t ->
  (1 - tol <= (qmin s t + epsilon) / (qmax s t + epsilon) <-> near_tie tol s t).
Proof.
  intros Ht Hs Hw. pose proof eps_pos as Pe. unfold near_tie. rewrite !eps_eq.
  assert (forall lo hi, 0 <= lo <= hi ->
            (1 - tol <= (lo + epsilon) / (hi + epsilon) <-> hi - lo <= tol * (hi + epsilon))) as C.
  { intros lo hi H. split; intros L.
    - apply (Qmult_le_compat_r _ _ (hi + epsilon)) in L; [|lra].
      setoid_replace ((lo + epsilon) / (hi + epsilon) * (hi + epsilon)) with (lo + epsilon) in L
        by (field; lra). lra.
    - apply Qle_shift_div_l; [lra|]. lra. }
  assert (mono : forall x y, x <= y -> tol * (x + epsilon) <= tol * (y + epsilon)).
  { intros x y L. rewrite !(Qmult_comm tol). apply Qmult_le_compat_r; lra. }
  unfold qmin, qmax. destruct (Qle_bool s t) eqn:E.
  - apply Qle_bool_iff in E. rewrite C by lra.
    rewrite Qabs_neg by lra. pose proof (mono s t E). split; [right; lra|intros [H1|H1]; lra].
  - apply Qle_bool_false in E. rewrite C by lra.
    rewrite Qabs_pos by lra. pose proof (mono t s ltac:(lra)). split; [left; lra|intros [H1|H1]; lra].
Qed.

Lemma weak_ok scoring w tol : 0 <= tol -> 0 <= snd w -> (forall a s, In (a, s) scoring -> 0 <= s) ->
  exists ws, get_weak_winners scoring w tol = Some ws
    /\ selects (fun x => fst x <> fst w /\ near_tie tol (snd x) (snd w)) scoring ws.
Proof.
  intros Ht Hw. induction scoring as [|[a s] rest IH]; intros Hs; cbn [get_weak_winners].
  - exists []. split; [reflexivity|constructor].
  - destruct IH as (ws & E & S); [intros; eapply Hs; right; eauto|].
    pose proof (Hs a s (or_introl eq_refl)) as Ps.
    destruct (String.eqb_spec a (fst w)) as [->|Na].
    + exists ws. split; [exact E|]. apply sel_drop; [cbn; tauto|exact S].
    + pose proof eps_pos as Pe.
      assert (0 < qmax s (snd w) + epsilon) as Pd.
      { unfold qmax. destruct (Qle_bool s (snd w)); lra. }
      destruct (Qeq_bool (qmax s (snd w) + epsilon) 0) eqn:Z.
      { apply Qeq_bool_iff in Z. rewrite Z in Pd. lra. }
      rewrite E. destruct (Qle_bool (1 - tol) _) eqn:R.
      * apply Qle_bool_iff, ratio_iff in R; auto. eexists. split; [reflexivity|].
        apply sel_keep; auto.
      * eexists. split; [reflexivity|]. apply sel_drop; [|exact S]. intros [_ H]. cbn in H.
        apply ratio_iff in H; auto. apply Qle_bool_iff in H. congruence.
Qed.

Lemma selects_in {A} (P : A -> Prop) l l' x : selects P l l' -> (In x l' <-> In x l /\ P x).
Proof.
  induction 1 as [|y l l' Py S IH|y l l' Ny S IH]; cbn.
  - tauto.
  - rewrite IH. split; [intros [->|?]; tauto|intros [[->|?] ?]; tauto].
  - rewrite IH. split; [tauto|]. intros [[->|?] ?]; tauto.
Qed.

Lemma selects_nodup (P : string * Q -> Prop) l l' : selects P l l' ->
  NoDup (map fst l) -> NoDup (map fst l').
Proof.
  induction 1 as [|y l l' Py S IH|y l l' Ny S IH]; cbn; intros N; auto.
  - inversion N; subst. constructor; auto. intros H. apply H1. apply in_map_iff in H.
    destruct H as (z & E & Hz). apply in_map_iff. exists z. split; auto.
    apply (selects_in _ _ _ z S) in Hz. tauto.
  - inversion N; auto.
Qed.

(** ** The winner *)

Lemma better_irrefl l s : ~ better l s s.
Proof. destruct l; cbn; lra. Qed.

Lemma best_wins larger scoring w : best_of larger scoring = Some w -> wins larger scoring w.
Proof.
  unfold best_of. destruct scoring as [|s rest]; [discriminate|]. intros H. injection H as H.
  assert (G : forall rest full best, wins larger full best ->
      wins larger (full ++ rest)
        (fold_left (fun best x => if (if larger then Qlt_bool (snd best) (snd x)
                                      else Qlt_bool (snd x) (snd best)) then x else best) rest best)).
  2:{ rewrite <- H. apply (G rest [s] s). exists [], []. split; [reflexivity|]. split; intros x []. }
  clear. intros rest. induction rest as [|x rest IH]; intros full best W; cbn [fold_left].
  - rewrite app_nil_r. exact W.
  - assert (full ++ x :: rest = (full ++ [x]) ++ rest)%list as -> by (rewrite <- app_assoc; reflexivity).
    destruct W as (b & a & E & Hb & Ha).
    set (c := if larger then Qlt_bool (snd best) (snd x) else Qlt_bool (snd x) (snd best)).
    assert (Hc : c = true <-> better larger (snd x) (snd best)).
    { unfold c, better. destruct larger; apply Qlt_bool_iff. }
    assert (T : forall p q r : Q, better larger p q -> better larger q r -> better larger p r).
    { unfold better. destruct larger; intros; lra. }
    assert (T' : forall p q r : Q, better larger p q -> ~ better larger r q -> better larger p r).
    { unfold better. destruct larger; intros; lra. }
    assert (wins larger (full ++ [x]) (if c then x else best)) as W'.
    { destruct c eqn:Ec.
      - exists full, []. split; [reflexivity|]. split; [|intros y []].
        intros y Hy. rewrite E in Hy. apply in_app_or in Hy. cbn in Hy.
        assert (better larger (snd x) (snd best)) as B by (apply Hc; reflexivity).
        destruct Hy as [Hy|[<-|Hy]]; [|exact B|].
        + apply T with (snd best); auto.
        + apply T' with (snd best); auto.
      - exists b, (a ++ [x])%list. split; [rewrite E, <- app_assoc; reflexivity|]. split; [exact Hb|].
        intros y Hy. apply in_app_or in Hy. destruct Hy as [Hy|[<-|[]]]; [auto|].
        intros B. apply Hc in B. discriminate. }
    exact (IH (full ++ [x])%list _ W').
Qed.
