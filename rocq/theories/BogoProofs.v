(** Proofs about BOGO. *)
From Verif Require Import Spec Base DomModel DomProofs BogoModel.

Notation point := (vec * vec)%type (only parsing).

Lemma bogo_loop_spec (ind : point) : forall archive dominated,
  bogo_loop dominated ind archive =
    if dominated then (filter (fun a => negb (dominates (snd ind) (snd a))) archive, true)
    else match archive with
         | [] => ([], false)
         | a :: rest => if dominates (snd a) (snd ind) then bogo_loop true ind rest
                        else let '(k, f) := bogo_loop false ind rest in (if negb (dominates (snd ind) (snd a)) then a :: k else k, f)
         end.
Proof.
  induction archive as [|a rest IH]; intros []; try reflexivity.
  cbn [bogo_loop negb andb]. rewrite (IH true). cbn [filter]. destruct (dominates (snd ind) (snd a)); reflexivity.
Qed.

(** what one insertion does to an archive without dominated members *)
Lemma refresh_cases d (ind : point) : length (snd ind) = d -> forall archive,
  all_dim d snd archive -> (forall x y, In x archive -> In y archive -> ~ pareto_dom (snd x) (snd y)) ->
  (exists before a after, archive = before ++ a :: after /\ pareto_dom (snd a) (snd ind) /\
     (forall x, In x before -> ~ pareto_dom (snd x) (snd ind)) /\ bogo_loop false ind archive = (before ++ after, true)) \/
  ((forall x, In x archive -> ~ pareto_dom (snd x) (snd ind)) /\
   bogo_loop false ind archive = (filter (fun x => negb (dominates (snd ind) (snd x))) archive, false)).
Proof.
  intros Hi. induction archive as [|a rest IH]; intros HD AC.
  - right. split; [intros x [] | reflexivity].
  - rewrite bogo_loop_spec. assert (La : length (snd a) = d) by (apply HD; now left).
    destruct (dominates (snd a) (snd ind)) eqn:Ea.
    + left. exists [], a, rest. apply dominates_spec in Ea; [|congruence]. split; [reflexivity|]. split; [exact Ea|]. split; [intros x []|].
      rewrite bogo_loop_spec. cbn [app]. f_equal. apply filter_all. intros x Hx. apply negb_true_iff, not_true_is_false.
      intros H. apply dominates_spec in H; [|rewrite Hi; symmetry; apply HD; now right].
      apply (AC a x); [now left | now right | exact (pareto_dom_trans _ _ _ Ea H)].
    + assert (Na : ~ pareto_dom (snd a) (snd ind)) by (rewrite <- dominates_spec by congruence; congruence).
      destruct IH as [(before & b & after & -> & Hb & Hbe & E)|(Hn & E)].
      * intros x Hx. apply HD. now right.
      * intros x y Hx Hy. apply AC; now right.
      * left. exists (a :: before), b, after. split; [reflexivity|]. split; [exact Hb|]. split; [intros x [<-|Hx]; auto|].
        rewrite E. replace (negb (dominates (snd ind) (snd a))) with true; [reflexivity|]. symmetry. apply negb_true_iff, not_true_is_false.
        intros H. apply dominates_spec in H; [|congruence]. apply (AC b a); [right; apply in_or_app; right; now left | now left | exact (pareto_dom_trans _ _ _ Hb H)].
      * right. split; [intros x [<-|Hx]; auto|]. rewrite E. cbn [filter]. destruct (dominates (snd ind) (snd a)); reflexivity.
Qed.

Definition bogo_inv (f : vec -> vec) (seen : list vec) (s : bogo_state) : Prop :=
  (forall x, In x (b_archive s) -> In (fst x) seen /\ snd x = f (fst x)) /\
  (forall x y, In x (b_archive s) -> In y (b_archive s) -> ~ pareto_dom (snd x) (snd y)) /\
  b_cost s = length seen.

Section Bogo.
  Variable f : vec -> vec.
  Variable d : nat.
  Hypothesis f_dim : forall v, length (f v) = d.

  Lemma inv_dim seen s : bogo_inv f seen s -> all_dim d snd (b_archive s).
  Proof. intros (H & _) x Hx. destruct (H x Hx) as (_ & ->). apply f_dim. Qed.

  Lemma bogo_add_inv seen s v : bogo_inv f seen s -> bogo_inv f (seen ++ [v]) (bogo_add f s v).
  Proof.
    intros HI. pose proof (inv_dim _ _ HI) as HD. destruct HI as (H1 & H2 & H3).
    assert (C : b_cost (bogo_add f s v) = length (seen ++ [v])) by (cbn; rewrite app_length, H3; reflexivity).
    assert (Seen : forall x, In x seen -> In x (seen ++ [v])) by (intros; apply in_or_app; auto).
    destruct (refresh_cases d (bogo_ind f v) (f_dim v) (b_archive s) HD H2) as [(be & a & af & Ea & _ & _ & E)|(Hn & E)];
      unfold bogo_inv; cbn [bogo_add b_archive]; unfold refresh_archive; rewrite E; (split; [|split; [|exact C]]).
    - intros x Hx. assert (Hx' : In x (b_archive s)) by (rewrite Ea; apply in_app_or in Hx; apply in_or_app; cbn; tauto).
      destruct (H1 x Hx'). auto.
    - assert (Sub : forall x, In x (be ++ af) -> In x (b_archive s)) by (intros x Hx; rewrite Ea; apply in_app_or in Hx; apply in_or_app; cbn; tauto).
      auto.
    - intros x Hx. apply in_app_or in Hx. destruct Hx as [Hx|[<-|[]]].
      + apply filter_In in Hx. destruct (H1 x) as (A & B); [tauto|]. auto.
      + cbn. split; [apply in_or_app; right; now left | reflexivity].
    - intros x y Hx Hy. apply in_app_or in Hx. apply in_app_or in Hy.
      destruct Hx as [Hx|[<-|[]]], Hy as [Hy|[<-|[]]].
      + apply filter_In in Hx, Hy. apply H2; tauto.
      + apply filter_In in Hx. apply Hn; tauto.
      + apply filter_In in Hy. destruct Hy as (Hy & Hd). apply negb_true_iff in Hd.
        rewrite <- dominates_spec; [congruence|]. cbn. rewrite f_dim. symmetry. now apply HD.
      + apply pareto_dom_irrefl.
  Qed.

  Lemma bogo_fold_inv vs : forall seen s, bogo_inv f seen s -> bogo_inv f (seen ++ vs) (fold_left (bogo_add f) vs s).
  Proof.
    induction vs as [|v vs IH]; intros seen s HI; cbn [fold_left]; [now rewrite app_nil_r|].
    replace (seen ++ v :: vs) with ((seen ++ [v]) ++ vs) by (rewrite <- app_assoc; reflexivity). apply IH. now apply bogo_add_inv.
  Qed.

  Lemma bogo_run_inv vs : bogo_inv f vs (bogo_init f vs).
  Proof. apply (bogo_fold_inv vs []). split; [intros x []|]. split; [intros x y [] | reflexivity]. Qed.

  (** the archive is exactly the non-dominated points as long as no newcomer is dominated by a member *)
  Definition bogo_exact (seen : list vec) (s : bogo_state) : Prop :=
    forall x, In x (b_archive s) <-> snd x = f (fst x) /\ In (fst x) seen /\ forall w, In w seen -> ~ pareto_dom (f w) (f (fst x)).

  Lemma bogo_add_exact seen s v : bogo_inv f seen s -> bogo_exact seen s ->
    (forall x, In x (b_archive s) -> ~ pareto_dom (snd x) (f v)) ->
    (forall w, In w seen -> exists x, In x (b_archive s) /\ (snd x = f w \/ pareto_dom (snd x) (f w))) ->
    bogo_exact (seen ++ [v]) (bogo_add f s v) /\
    (forall w, In w (seen ++ [v]) -> exists x, In x (b_archive (bogo_add f s v)) /\ (snd x = f w \/ pareto_dom (snd x) (f w))).
  Proof.
    intros HI HX HN HC. pose proof (inv_dim _ _ HI) as HD. destruct HI as (H1 & H2 & _).
    destruct (refresh_cases d (bogo_ind f v) (f_dim v) (b_archive s) HD H2) as [(be & a & af & Ea & Ha & _)|(_ & E)].
    { exfalso. apply (HN a); [rewrite Ea; apply in_or_app; right; now left | exact Ha]. }
    assert (A : b_archive (bogo_add f s v) = filter (fun x => negb (dominates (snd (bogo_ind f v)) (snd x))) (b_archive s) ++ [bogo_ind f v]).
    { cbn [bogo_add b_archive]. unfold refresh_archive. rewrite E. reflexivity. }
    assert (Keep : forall x, In x (b_archive s) -> ~ pareto_dom (f v) (snd x) -> In x (b_archive (bogo_add f s v))).
    { intros x Hx Hn. rewrite A. apply in_or_app. left. apply filter_In. split; [exact Hx|]. apply negb_true_iff, not_true_is_false.
      rewrite dominates_spec; [exact Hn|]. cbn. rewrite f_dim. symmetry. now apply HD. }
    assert (New : In (bogo_ind f v) (b_archive (bogo_add f s v))) by (rewrite A; apply in_or_app; right; now left).
    split.
    - intros x. split.
      + rewrite A. intros Hx. apply in_app_or in Hx. destruct Hx as [Hx|[<-|[]]].
        * apply filter_In in Hx. destruct Hx as (Hx & Hd). apply negb_true_iff in Hd. pose proof (proj1 (HX x) Hx) as (Q1 & Q2 & Q3).
          split; [exact Q1|]. split; [apply in_or_app; auto|]. intros w Hw. apply in_app_or in Hw. destruct Hw as [Hw|[<-|[]]]; [auto|].
          rewrite <- Q1. rewrite <- dominates_spec; [|rewrite f_dim; symmetry; now apply HD]. cbn in Hd. congruence.
        * split; [reflexivity|]. cbn [bogo_ind fst]. split; [apply in_or_app; right; now left|].
          intros w Hw. apply in_app_or in Hw. destruct Hw as [Hw|[<-|[]]]; [|apply pareto_dom_irrefl].
          intros Hd. destruct (HC w Hw) as (y & Hy & [Ey|Ey]); apply (HN y Hy); [rewrite Ey; exact Hd | exact (pareto_dom_trans _ _ _ Ey Hd)].
      + intros (Q1 & Q2 & Q3). apply in_app_or in Q2. destruct Q2 as [Q2|[Q2|[]]].
        * apply Keep; [apply HX; split; [exact Q1|]; split; [exact Q2|]; intros w Hw; apply Q3, in_or_app; auto|].
          rewrite Q1. apply Q3. apply in_or_app. right. now left.
        * replace x with (bogo_ind f v); [exact New|]. destruct x as [x1 x2]. cbn in *. subst. reflexivity.
    - intros w Hw. apply in_app_or in Hw. destruct Hw as [Hw|[<-|[]]]; [|exists (bogo_ind f v); split; [exact New | now left]].
      destruct (HC w Hw) as (x & Hx & Hc). destruct (dominates (f v) (snd x)) eqn:Ed.
      + exists (bogo_ind f v). split; [exact New|]. right. apply dominates_spec in Ed; [|rewrite f_dim; symmetry; now apply HD].
        destruct Hc as [<-|Hc]; [exact Ed | exact (pareto_dom_trans _ _ _ Ed Hc)].
      + exists x. split; [|exact Hc]. apply Keep; [exact Hx|]. rewrite <- dominates_spec; [congruence|]. rewrite f_dim. symmetry. now apply HD.
  Qed.

  Lemma bogo_fold_exact vs : forall seen s, bogo_inv f seen s -> bogo_exact seen s ->
    (forall w, In w seen -> exists x, In x (b_archive s) /\ (snd x = f w \/ pareto_dom (snd x) (f w))) ->
    (forall before v after, vs = before ++ v :: after -> forall w, In w (seen ++ before) -> ~ pareto_dom (f w) (f v)) ->
    bogo_exact (seen ++ vs) (fold_left (bogo_add f) vs s).
  Proof.
    induction vs as [|v vs IH]; intros seen s HI HX HC HN; cbn [fold_left]; [now rewrite app_nil_r|].
    replace (seen ++ v :: vs) with ((seen ++ [v]) ++ vs) by (rewrite <- app_assoc; reflexivity).
    destruct (bogo_add_exact seen s v HI HX) as (X1 & X2).
    { intros x Hx Hd. destruct HI as (H1 & _). destruct (H1 x Hx) as (Hs & Ex). rewrite Ex in Hd.
      apply (HN [] v vs eq_refl (fst x)); [rewrite app_nil_r; exact Hs | exact Hd]. }
    { exact HC. }
    apply IH; [now apply bogo_add_inv | exact X1 | exact X2 |].
    intros be w af -> u Hu. apply (HN (v :: be) w af eq_refl). rewrite <- app_assoc in Hu. exact Hu.
  Qed.
End Bogo.
