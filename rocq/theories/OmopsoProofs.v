From Verif Require Import Spec Base OmopsoSpec DomModel DomProofs SortModel SortProofs VarModel VarProofs NsgaModel NsgaProofs SpeaModel SpeaProofs SmsModel SmsProofs MetModel MetProofs OmopsoModel.
From Coq Require Import QArith.
Local Open Scope nat_scope.

(** ---- the scan, without exceptions ---- *)
Section Scan.
  Variable A : Type.
  Variables dom eqo : A -> A -> bool.
  Fixpoint gscan (p : A) (kept rest : list A) {struct rest} : list A * bool :=
    match rest with
    | [] => (kept ++ [p], true)
    | l :: rest' =>
        if dom l p then (kept ++ rest, false)
        else if dom p l then
          match rest' with [] => (kept ++ [p], true) | skipped :: rest'' => gscan p (kept ++ [skipped]) rest'' end
        else if eqo l p then (kept ++ rest, false) else gscan p (kept ++ [l]) rest'
    end.

  (** induction two elements at a time *)
  Lemma two_ind (Q : list A -> Prop) : Q [] -> (forall a, Q []  -> Q [a]) ->
    (forall a b l, Q (b :: l) -> Q l -> Q (a :: b :: l)) -> forall l, Q l.
  Proof.
    intros H0 H1 H2 l. enough (Q l /\ forall a, Q (a :: l)) by tauto.
    induction l as [|b l IH]; [auto|]. destruct IH as (IH1 & IH2). split; [apply IH2|]. intros a. apply H2; auto.
  Qed.

  Lemma gscan_cases p : forall rest kept l' b, gscan p kept rest = (l', b) ->
    exists kept', (if b then exists k, l' = kept ++ k ++ [p] /\ kept' = k else exists k, l' = kept ++ k /\ kept' = k) /\
      incl kept' rest /\ length kept' <= length rest /\
      (b = false -> exists w, In w l' /\ (dom w p = true \/ eqo w p = true)).
  Proof.
    induction rest as [|a IH0|a c rest IH1 IH2] using two_ind; intros kept l' b E; cbn [gscan] in E.
    - injection E as <- <-. exists []. split; [exists []; auto|]. split; [intros x []|]. split; [cbn; lia | discriminate].
    - assert (F : l' = kept ++ [a] -> b = false -> (dom a p = true \/ eqo a p = true) ->
         exists kept', (if b then exists k, l' = kept ++ k ++ [p] /\ kept' = k else exists k, l' = kept ++ k /\ kept' = k) /\
           incl kept' [a] /\ length kept' <= length [a] /\ (b = false -> exists w, In w l' /\ (dom w p = true \/ eqo w p = true))).
      { intros -> -> H. exists [a]. split; [eauto|]. split; [apply incl_refl|]. split; [lia|]. intros _. exists a. split; [apply in_or_app; right; now left | exact H]. }
      destruct (dom a p) eqn:D1; [injection E as <- <-; apply F; auto|].
      destruct (dom p a) eqn:D2.
      + injection E as <- <-. exists []. split; [exists []; auto|]. split; [intros x []|]. split; [cbn; lia | discriminate].
      + destruct (eqo a p) eqn:D3; [injection E as <- <-; apply F; auto|].
        injection E as <- <-. exists [a]. split; [exists [a]; rewrite <- app_assoc; auto|]. split; [apply incl_refl|]. split; [cbn; lia | discriminate].
    - assert (F : l' = kept ++ a :: c :: rest -> b = false -> (dom a p = true \/ eqo a p = true) ->
         exists kept', (if b then exists k, l' = kept ++ k ++ [p] /\ kept' = k else exists k, l' = kept ++ k /\ kept' = k) /\
           incl kept' (a :: c :: rest) /\ length kept' <= length (a :: c :: rest) /\ (b = false -> exists w, In w l' /\ (dom w p = true \/ eqo w p = true))).
      { intros -> -> H. exists (a :: c :: rest). split; [eauto|]. split; [apply incl_refl|]. split; [lia|]. intros _. exists a. split; [apply in_or_app; right; now left | exact H]. }
      destruct (dom a p) eqn:D1; [injection E as <- <-; apply F; auto|].
      destruct (dom p a) eqn:D2.
      + destruct (IH2 _ _ _ E) as (k' & Hk & Hi & Hl & Hw). exists (c :: k'). split.
        * destruct b; destruct Hk as (k & -> & ->); exists (c :: k); rewrite <- app_assoc; auto.
        * split; [intros x [<-|Hx]; [right; now left | right; right; auto]|]. split; [cbn; lia | exact Hw].
      + destruct (eqo a p) eqn:D3; [injection E as <- <-; apply F; auto|].
        destruct (IH1 _ _ _ E) as (k' & Hk & Hi & Hl & Hw). exists (a :: k'). split.
        * destruct b; destruct Hk as (k & -> & ->); exists (a :: k); rewrite <- app_assoc; auto.
        * split; [intros x [<-|Hx]; [now left | right; auto]|]. split; [cbn in *; lia | exact Hw].
  Qed.

  (** everything that was there, and the newcomer, is covered afterwards *)
  Variable cov : A -> A -> Prop.
  Hypothesis cov_refl : forall a, cov a a.
  Hypothesis cov_trans : forall a b c, cov a b -> cov b c -> cov a c.
  Variable good : A -> Prop.
  Hypothesis dom_cov : forall a b, good a -> good b -> dom a b = true -> cov a b.
  Hypothesis eqo_cov : forall a b, good a -> good b -> eqo a b = true -> cov a b.
  Lemma gscan_covers p : good p -> forall rest kept, Forall good rest ->
    (forall x, In x (kept ++ rest) -> exists y, In y (fst (gscan p kept rest)) /\ cov y x) /\
    exists y, In y (fst (gscan p kept rest)) /\ cov y p.
  Proof.
    intros Gp. induction rest as [|a IH0|a c rest IH1 IH2] using two_ind; intros kept G; cbn [gscan].
    - split; [intros x Hx; rewrite app_nil_r in Hx; exists x; split; [apply in_or_app; now left | apply cov_refl]|].
      exists p. split; [apply in_or_app; right; now left | apply cov_refl].
    - inversion G as [|? ? Ga _]; subst.
      assert (F : dom a p = true \/ eqo a p = true ->
        (forall x, In x (kept ++ [a]) -> exists y, In y (kept ++ [a]) /\ cov y x) /\ exists y, In y (kept ++ [a]) /\ cov y p).
      { intros H. split; [eauto|]. exists a. split; [apply in_or_app; right; now left|]. destruct H; auto. }
      destruct (dom a p) eqn:D1; [apply F; auto|]. destruct (dom p a) eqn:D2; cbn [fst].
      + split; [|exists p; split; [apply in_or_app; right; now left | apply cov_refl]].
        intros x Hx. apply in_app_or in Hx. destruct Hx as [Hx|[<-|[]]].
        * exists x. split; [apply in_or_app; now left | apply cov_refl].
        * exists p. split; [apply in_or_app; right; now left | auto].
      + destruct (eqo a p) eqn:D3; [apply F; auto|]. cbn [fst].
        split; [|exists p; split; [apply in_or_app; right; now left | apply cov_refl]].
        intros x Hx. exists x. split; [apply in_or_app; now left | apply cov_refl].
    - inversion G as [|? ? Ga G']; subst. inversion G' as [|? ? Gc Gr]; subst.
      assert (F : dom a p = true \/ eqo a p = true ->
        (forall x, In x (kept ++ a :: c :: rest) -> exists y, In y (kept ++ a :: c :: rest) /\ cov y x) /\ exists y, In y (kept ++ a :: c :: rest) /\ cov y p).
      { intros H. split; [eauto|]. exists a. split; [apply in_or_app; right; now left|]. destruct H; auto. }
      destruct (dom a p) eqn:D1; [apply F; auto|]. destruct (dom p a) eqn:D2.
      + destruct (IH2 (kept ++ [c]) Gr) as (H1 & (y & Hy & Cy)). split; [|eauto].
        intros x Hx. apply in_app_or in Hx. destruct Hx as [Hx|[<-|Hx]].
        * apply H1. apply in_or_app. left. apply in_or_app. now left.
        * exists y. split; [exact Hy|]. eauto.
        * apply H1. rewrite <- app_assoc. apply in_or_app. now right.
      + destruct (eqo a p) eqn:D3; [apply F; auto|].
        destruct (IH1 (kept ++ [a]) G') as (H1 & H2). split; [|exact H2].
        intros x Hx. apply H1. rewrite <- app_assoc. exact Hx.
  Qed.
End Scan.
Arguments gscan {A}.

(** ---- the model's scan is that one ---- *)
Definition edom (en ed : Z) (a b : leader) : bool :=
  match omopso_dominates en ed (l_objs a) (l_objs b) with Some true => true | _ => false end.
Definition eobj (a b : leader) : bool := vec_eqb (l_objs a) (l_objs b).

Lemma omopso_loop_total en ed : forall a b acc, length a = length b -> omopso_dom_loop en ed acc a b <> None.
Proof.
  induction a as [|x a IH]; intros [|y b] acc L; try discriminate; cbn [omopso_dom_loop].
  destruct (_ <? _)%Z; [discriminate|]. destruct (_ <? _)%Z; apply IH; cbn in L; lia.
Qed.
Lemma equal_obj_eqb : forall a b, length a = length b -> equal_obj a b = Some (vec_eqb a b).
Proof.
  induction a as [|x a IH]; intros [|y b] L; try discriminate; cbn [equal_obj]; [reflexivity|].
  rewrite IH by (cbn in L; lia).
  destruct (Z.eqb_spec x y) as [->|NE]; f_equal.
  - destruct (vec_eqb a b) eqn:E.
    + apply vec_eqb_spec in E. subst. symmetry. now apply vec_eqb_spec.
    + destruct (vec_eqb (y :: a) (y :: b)) eqn:E'; [|reflexivity]. apply vec_eqb_spec in E'. injection E' as ->.
      assert (vec_eqb b b = true) by now apply vec_eqb_spec. congruence.
  - destruct (vec_eqb (x :: a) (y :: b)) eqn:E'; [|reflexivity]. apply vec_eqb_spec in E'. congruence.
Qed.

Lemma scan_gscan en ed d p : length (l_objs p) = d -> forall rest kept, all_dim d l_objs rest ->
  scan en ed p kept rest = Some (gscan (edom en ed) eobj p kept rest).
Proof.
  intros Hp. induction rest as [|a IH0|a c rest IH1 IH2] using two_ind; intros kept HD; cbn [scan gscan]; [reflexivity | |].
  - assert (La : length (l_objs a) = d) by (apply HD; now left). unfold edom, eobj.
    destruct (omopso_dominates en ed (l_objs a) (l_objs p)) as [[]|] eqn:E1; [reflexivity| |exfalso; eapply omopso_loop_total; [|exact E1]; congruence].
    destruct (omopso_dominates en ed (l_objs p) (l_objs a)) as [[]|] eqn:E2; [reflexivity| |exfalso; eapply omopso_loop_total; [|exact E2]; congruence].
    rewrite equal_obj_eqb by congruence. destruct (vec_eqb _ _); reflexivity.
  - assert (La : length (l_objs a) = d) by (apply HD; now left).
    assert (X1 : edom en ed a p = match omopso_dominates en ed (l_objs a) (l_objs p) with Some true => true | _ => false end) by reflexivity.
    assert (X2 : edom en ed p a = match omopso_dominates en ed (l_objs p) (l_objs a) with Some true => true | _ => false end) by reflexivity.
    destruct (omopso_dominates en ed (l_objs a) (l_objs p)) as [[]|] eqn:E1; [now rewrite X1| |exfalso; eapply omopso_loop_total; [|exact E1]; congruence].
    rewrite X1.
    destruct (omopso_dominates en ed (l_objs p) (l_objs a)) as [[]|] eqn:E2; [| |exfalso; eapply omopso_loop_total; [|exact E2]; congruence]; rewrite X2.
    + apply IH2. intros x Hx. apply HD. right; now right.
    + rewrite equal_obj_eqb by congruence. fold (eobj a p). destruct (eobj a p); [reflexivity|]. apply IH1. intros x Hx. apply HD. now right.
Qed.

(** ---- eta = 0 ---- *)
Lemma edom_zero a b : length (l_objs a) = length (l_objs b) -> (edom 0 1 a b = true <-> pareto_dom (l_objs a) (l_objs b)).
Proof.
  intros L. unfold edom. rewrite omopso_dominates_zero by exact L. rewrite <- dominates_spec by exact L.
  destruct (dominates _ _); split; congruence.
Qed.
Lemma eobj_spec a b : eobj a b = true <-> l_objs a = l_objs b.
Proof. apply vec_eqb_spec. Qed.

Lemma covers_trans a b c : covers a b -> covers b c -> covers a c.
Proof.
  intros [->|H1] [->|H2]; unfold covers; auto. right. eapply pareto_dom_trans; eassumption.
Qed.

Lemma archive_add_ok en ed d (archive : list leader) (p : leader) : all_dim d l_objs archive -> length (l_objs p) = d ->
  exists l b, archive_add en ed archive p = Some (l, b) /\ all_dim d l_objs l /\ incl l (p :: archive) /\
    (b = true -> exists k, l = k ++ [p] /\ incl k archive /\ length k <= length archive) /\
    (b = false -> incl l archive /\ length l <= length archive /\
       exists w, In w l /\ (edom en ed w p = true \/ eobj w p = true)) /\ l <> [].
Proof.
  intros HD Hp. unfold archive_add. rewrite (scan_gscan en ed d) by assumption.
  destruct (gscan (edom en ed) eobj p [] archive) as [l b] eqn:E. exists l, b. split; [reflexivity|].
  destruct (gscan_cases _ _ _ _ _ _ _ _ E) as (k' & Hk & Hi & Hl & Hw). cbn [app] in Hk.
  assert (Hincl : incl l (p :: archive)).
  { destruct b; destruct Hk as (k & -> & ->).
    - intros x Hx. apply in_app_or in Hx. destruct Hx as [Hx|[<-|[]]]; [right; auto | now left].
    - intros x Hx. right. auto. }
  split; [intros x Hx; destruct (Hincl x Hx) as [<-|Hx']; [exact Hp | now apply HD]|].
  split; [exact Hincl|]. destruct b; destruct Hk as (k & -> & ->).
  - split; [eauto|]. split; [discriminate|]. destruct k; discriminate.
  - split; [discriminate|]. split; [auto|]. destruct (Hw eq_refl) as (w & Hwin & _). destruct k; [destruct Hwin | discriminate].
Qed.

Lemma archive_add_covers d (archive : list leader) (p : leader) l b : all_dim d l_objs archive -> length (l_objs p) = d ->
  archive_add 0 1 archive p = Some (l, b) ->
  forall x, In x (p :: archive) -> exists y, In y l /\ covers (l_objs y) (l_objs x).
Proof.
  intros HD Hp E. unfold archive_add in E. rewrite (scan_gscan 0 1 d) in E by assumption.
  injection E as E. assert (EL : l = fst (gscan (edom 0 1) eobj p [] archive)) by (rewrite E; reflexivity). subst l.
  destruct (gscan_covers leader (edom 0 1) eobj (fun a b => covers (l_objs a) (l_objs b))) with (good := fun l : leader => length (l_objs l) = d) (p := p) (rest := archive) (kept := @nil leader) as (H1 & H2).
  - intros a. now left.
  - intros a b0 c. apply covers_trans.
  - intros a b0 La Lb H. right. apply edom_zero; [congruence | exact H].
  - intros a b0 La Lb H. left. now apply eobj_spec.
  - exact Hp.
  - apply Forall_forall. exact HD.
  - intros x [<-|Hx]; [exact H2 | apply H1; exact Hx].
Qed.

Lemma add_all_covers d ps : forall archive, all_dim d l_objs archive -> all_dim d l_objs ps ->
  exists l, add_all 0 1 archive ps = Some l /\ incl l (archive ++ ps) /\
    forall x, In x (archive ++ ps) -> exists y, In y l /\ covers (l_objs y) (l_objs x).
Proof.
  induction ps as [|p ps IH]; intros archive HD HP; cbn [add_all].
  - exists archive. rewrite app_nil_r. split; [reflexivity|]. split; [apply incl_refl|]. intros x Hx. exists x. split; [exact Hx | now left].
  - assert (Lp : length (l_objs p) = d) by (apply HP; now left).
    destruct (archive_add_ok 0 1 d archive p HD Lp) as (l & b & E & HDl & Hi & _). rewrite E.
    pose proof (archive_add_covers d archive p l b HD Lp E) as C.
    destruct (IH l HDl) as (l' & E' & Hi' & C'); [intros x Hx; apply HP; now right|].
    exists l'. split; [exact E'|]. split.
    + intros x Hx. apply Hi' in Hx. apply in_app_or in Hx. apply in_or_app. destruct Hx as [Hx|Hx].
      * destruct (Hi x Hx) as [<-|Hx']; [right; now left | now left].
      * right; now right.
    + intros x Hx. assert (H : In x (p :: archive) \/ In x ps).
      { apply in_app_or in Hx. destruct Hx as [Hx|[<-|Hx]]; [left; now right | left; now left | now right]. }
      destruct H as [H|H]; [|apply C'; apply in_or_app; now right].
      destruct (C x H) as (y & Hy & Cy). destruct (C' y) as (z & Hz & Cz); [apply in_or_app; now left|].
      exists z. split; [exact Hz|]. eapply covers_trans; eassumption.
Qed.

(** An antichain to which [p] is added. *)
Section Antichain.
  Variables (d : nat) (p : leader).
  Hypothesis Hp : length (l_objs p) = d.
  Notation beats x y := (pareto_dom (l_objs x) (l_objs y)).

  Lemma chain_facts (l : list leader) x y : antichain l_objs l -> In x l -> In y l -> beats p x -> ~ beats y p /\ l_objs y <> l_objs p.
  Proof.
    intros AC Hx Hy H. split.
    - intros H'. apply (AC y x Hy Hx). eapply pareto_dom_trans; eassumption.
    - intros E. apply (AC y x Hy Hx). rewrite E. exact H.
  Qed.

  Lemma gscan_antichain : forall rest kept, all_dim d l_objs (kept ++ rest) -> antichain l_objs (kept ++ rest) ->
    forall l' b, gscan (edom 0 1) eobj p kept rest = (l', b) ->
    (b = true -> forall y, In y (kept ++ rest) -> In y kept \/ ~ beats y p) /\
    (b = false -> l' = kept ++ rest).
  Proof.
    induction rest as [|a IH0|a c rest IH1 IH2] using two_ind; intros kept HD AC l' b E; cbn [gscan] in E.
    - injection E as <- <-. split; [|discriminate]. intros _ y Hy. rewrite app_nil_r in Hy. now left.
    - assert (La : length (l_objs a) = length (l_objs p)) by (rewrite Hp; apply HD; apply in_or_app; right; now left).
      destruct (edom 0 1 a p) eqn:D1; [injection E as <- <-; split; [discriminate | reflexivity]|].
      assert (N1 : ~ beats a p) by (rewrite <- edom_zero by exact La; congruence).
      destruct (edom 0 1 p a) eqn:D2.
      + injection E as <- <-. split; [|discriminate]. intros _ y Hy. apply in_app_or in Hy. destruct Hy as [Hy|[<-|[]]]; [now left | now right].
      + destruct (eobj a p) eqn:D3; injection E as <- <-; (split; [try discriminate | try discriminate; reflexivity]).
        intros _ y Hy. apply in_app_or in Hy. destruct Hy as [Hy|[<-|[]]]; [now left | now right].
    - assert (La : length (l_objs a) = length (l_objs p)) by (rewrite Hp; apply HD; apply in_or_app; right; now left).
      destruct (edom 0 1 a p) eqn:D1; [injection E as <- <-; split; [discriminate | reflexivity]|].
      assert (N1 : ~ beats a p) by (rewrite <- edom_zero by exact La; congruence).
      destruct (edom 0 1 p a) eqn:D2.
      + apply edom_zero in D2; [|congruence].
        assert (Fa : In a (kept ++ a :: c :: rest)) by (apply in_or_app; right; now left).
        split.
        * intros _ y Hy. right. now apply (chain_facts _ a y AC Fa Hy D2).
        * intros Eb. exfalso. subst b. destruct (gscan_cases _ _ _ _ _ _ _ _ E) as (k' & (k & -> & ->) & Hi & _ & Hw).
          destruct (Hw eq_refl) as (w & Hwin & Hd).
          assert (Hwl : In w (kept ++ a :: c :: rest)).
          { apply in_app_or in Hwin. apply in_or_app. destruct Hwin as [Hw1|Hw1].
            - apply in_app_or in Hw1. destruct Hw1 as [Hw1|[<-|[]]]; [now left | right; right; now left].
            - right. right. right. auto. }
          destruct (chain_facts _ a w AC Fa Hwl D2) as (F1 & F2).
          destruct Hd as [Hd|Hd]; [|apply eobj_spec in Hd; contradiction]. apply F1.
          apply edom_zero; [rewrite Hp; apply HD; exact Hwl | exact Hd].
      + destruct (eobj a p) eqn:D3; [injection E as <- <-; split; [discriminate | reflexivity]|].
        destruct (IH1 (kept ++ [a])) with (l' := l') (b := b) as (H1 & H2).
        * rewrite <- app_assoc. exact HD.
        * rewrite <- app_assoc. exact AC.
        * exact E.
        * rewrite <- app_assoc in H2. split; [|exact H2].
          intros Eb y Hy. specialize (H1 Eb y). rewrite <- app_assoc in H1. destruct (H1 Hy) as [H|H]; [|now right].
          apply in_app_or in H. destruct H as [H|[<-|[]]]; [now left | now right].
  Qed.

  (** no two neighbours are both dominated by the newcomer: nothing is missed *)
  Lemma gscan_no_neighbours : forall rest kept, all_dim d l_objs (kept ++ rest) -> antichain l_objs (kept ++ rest) ->
    (forall i a c, nth_error rest i = Some a -> nth_error rest (S i) = Some c -> beats p a -> beats p c -> False) ->
    forall l', gscan (edom 0 1) eobj p kept rest = (l', true) -> l' = kept ++ filter (fun x => negb (edom 0 1 p x)) rest ++ [p].
  Proof.
    induction rest as [|a IH0|a c rest IH1 IH2] using two_ind; intros kept HD AC NN l' E; cbn [gscan] in E.
    - injection E as <-. reflexivity.
    - destruct (edom 0 1 a p) eqn:D1; [discriminate|].
      destruct (edom 0 1 p a) eqn:D2; [injection E as <-; cbn; now rewrite D2|].
      destruct (eobj a p) eqn:D3; [discriminate|]. injection E as <-. cbn. rewrite D2. cbn. rewrite <- app_assoc. reflexivity.
    - assert (La : length (l_objs a) = length (l_objs p)) by (rewrite Hp; apply HD; apply in_or_app; right; now left).
      assert (Lc : length (l_objs c) = length (l_objs p)) by (rewrite Hp; apply HD; apply in_or_app; right; right; now left).
      destruct (edom 0 1 a p) eqn:D1; [discriminate|].
      cbn [filter]. destruct (edom 0 1 p a) eqn:D2.
      + assert (Dc : edom 0 1 p c = false).
        { destruct (edom 0 1 p c) eqn:Dc; [|reflexivity]. exfalso.
          apply (NN 0 a c eq_refl eq_refl); apply edom_zero; congruence. }
        rewrite (IH2 (kept ++ [c])) with (l' := l').
        * cbn [negb filter]. rewrite Dc. cbn [negb]. rewrite <- app_assoc. reflexivity.
        * intros x Hx. apply HD. rewrite <- app_assoc in Hx. apply in_app_or in Hx. apply in_or_app. destruct Hx as [Hx|Hx]; [now left | right; now right].
        * intros x y Hx Hy. apply AC; rewrite <- app_assoc in *; (apply in_app_or in Hx; apply in_app_or in Hy; apply in_or_app).
          -- destruct Hx as [Hx|Hx]; [now left | right; now right].
          -- destruct Hy as [Hy|Hy]; [now left | right; now right].
        * intros i x y Hx Hy. exact (NN (S (S i)) x y Hx Hy).
        * exact E.
      + destruct (eobj a p) eqn:D3; [discriminate|].
        rewrite (IH1 (kept ++ [a])) with (l' := l').
        * cbn [negb]. rewrite <- app_assoc. reflexivity.
        * rewrite <- app_assoc. exact HD.
        * rewrite <- app_assoc. exact AC.
        * intros i x y Hx Hy. exact (NN (S i) x y Hx Hy).
        * exact E.
  Qed.
End Antichain.

(** ---- crowding and pruning ---- *)
Definition core (l : leader) : vec * vec := (l_value l, l_objs l).

Lemma crowd_rest_core i span : forall rest prev, map core (crowd_rest i span prev rest) = map core rest.
Proof.
  induction rest as [|l rest IH]; intros prev; [reflexivity|]. cbn [crowd_rest]. destruct rest as [|l2 rest]; [reflexivity|].
  cbn [map]. f_equal. apply IH.
Qed.

Lemma crowd_objective_core i l : Permutation (map core (crowd_objective l i)) (map core l).
Proof.
  unfold crowd_objective. pose proof (stable_sort_perm (fun a b => (objective i a <=? objective i b)%Z) l) as HP.
  destruct (stable_sort _ l) as [|x rest].
  - apply Permutation_nil in HP. now subst.
  - cbn [map]. rewrite crowd_rest_core. apply (Permutation_map core) in HP. exact HP.
Qed.

Lemma core_objective i x y : core x = core y -> objective i x = objective i y.
Proof. unfold core, objective. intros E. injection E as _ ->. reflexivity. Qed.

Lemma crowd_objective_first i l : l <> [] ->
  exists x r, crowd_objective l i = x :: r /\ l_crowd x = None /\ forall y, In y r -> (objective i x <= objective i y)%Z.
Proof.
  intros NE. unfold crowd_objective.
  pose proof (stable_sort_perm (fun a b => (objective i a <=? objective i b)%Z) l) as HP.
  assert (HS : StronglySorted (fun a b => (objective i a <=? objective i b)%Z = true) (stable_sort (fun a b => (objective i a <=? objective i b)%Z) l)).
  { apply (stable_sort_sorted _ (fun _ => True)).
    - intros a b _ _ H. lia.
    - intros a b c _ _ _ H1 H2. lia.
    - apply Forall_forall. auto. }
  destruct (stable_sort _ l) as [|x rest].
  - apply Permutation_nil in HP. now subst.
  - eexists. eexists. split; [reflexivity|]. split; [reflexivity|]. intros y Hy.
    apply (in_map core) in Hy. rewrite crowd_rest_core in Hy. apply in_map_iff in Hy. destruct Hy as (z & Ez & Hz).
    inversion HS as [|? ? _ F]; subst. rewrite Forall_forall in F. specialize (F z Hz).
    rewrite <- (core_objective i z y Ez). change (objective i (set_crowd None x)) with (objective i x). lia.
Qed.

Lemma crowd_fold_core is : forall l, Permutation (map core (fold_left crowd_objective is l)) (map core l).
Proof.
  induction is as [|i is IH]; intros l; cbn [fold_left]; [apply Permutation_refl|].
  eapply Permutation_trans; [apply IH | apply crowd_objective_core].
Qed.

Lemma crowding_ok d (l : list leader) : l <> [] -> all_dim d l_objs l ->
  exists l', crowding l = Some l' /\ Permutation (map core l') (map core l) /\
    (1 <= d -> exists x r, l' = x :: r /\ l_crowd x = None /\ forall y, In y r -> (objective (d - 1) x <= objective (d - 1) y)%Z).
Proof.
  intros NE HD. unfold crowding. destruct l as [|first rest] eqn:El; [contradiction|]. rewrite <- El in *.
  assert (Ld : length (l_objs first) = d) by (apply HD; rewrite El; now left). rewrite Ld.
  replace (existsb (fun x => length (l_objs x) <? d) l) with false.
  2:{ symmetry. apply not_true_is_false. intros H. apply existsb_exists in H. destruct H as (x & Hx & H). specialize (HD x Hx). apply Nat.ltb_lt in H. lia. }
  eexists. split; [reflexivity|].
  assert (Em : map core (map (set_crowd (Some 0%Q)) l) = map core l) by (rewrite map_map; apply map_ext; reflexivity).
  split; [rewrite <- Em; apply crowd_fold_core|].
  intros H1. destruct d as [|d]; [lia|]. replace (S d - 1) with d by lia. rewrite seq_S, fold_left_app. cbn [fold_left Nat.add].
  apply crowd_objective_first. intros E. pose proof (crowd_fold_core (seq 0 d) (map (set_crowd (Some 0%Q)) l)) as HP.
  rewrite E in HP. cbn in HP. apply Permutation_nil in HP. rewrite Em in HP. apply map_eq_nil in HP. contradiction.
Qed.

Lemma max_crowd_inf : forall rest pos bp best, l_crowd best = None -> max_crowd pos bp best rest = bp.
Proof.
  induction rest as [|l rest IH]; intros pos bp best H; cbn [max_crowd]; [reflexivity|]. rewrite H. cbn [crowd_lt]. now apply IH.
Qed.

Lemma prune_ok d (l : list leader) : 1 <= d -> l <> [] -> all_dim d l_objs l ->
  exists x r, prune l = Some r /\ Permutation (core x :: map core r) (map core l) /\
    forall y, In y r -> (objective (d - 1) x <= objective (d - 1) y)%Z.
Proof.
  intros Hd NE HD. destruct (crowding_ok d l NE HD) as (l' & E & HP & H). destruct (H Hd) as (x & r & -> & Hx & Hmin).
  exists x, r. unfold prune. rewrite E. rewrite max_crowd_inf by exact Hx. cbn [firstn skipn app]. auto.
Qed.

Lemma perm_core_In (l l' : list leader) x : Permutation (map core l) (map core l') -> In x l -> exists y, In y l' /\ core y = core x.
Proof.
  intros HP Hx. apply (in_map core) in Hx. apply (Permutation_in _ HP) in Hx. apply in_map_iff in Hx. destruct Hx as (y & E & Hy). eauto.
Qed.

Lemma leader_add_ok d size (l : list leader) (p : leader) : 1 <= d -> 1 <= size -> length l <= size ->
  all_dim d l_objs l -> length (l_objs p) = d ->
  exists l' b, leader_add size l p = Some (l', b) /\ all_dim d l_objs l' /\ 1 <= length l' <= size /\
    (forall x, In x l' -> exists y, In y (p :: l) /\ core y = core x).
Proof.
  intros Hd Hs Hl HD Hp. unfold leader_add.
  destruct (archive_add_ok 0 1 d l p HD Hp) as (l1 & b & -> & HD1 & Hi & Ht & Hf & NE).
  assert (L1 : length l1 <= S (length l)).
  { destruct b; [destruct (Ht eq_refl) as (k & -> & _ & Lk); rewrite app_length; cbn; lia | destruct (Hf eq_refl) as (_ & Lk & _); lia]. }
  assert (L0 : 1 <= length l1) by (destruct l1; [contradiction | cbn; lia]).
  destruct (b && (size <? length l1)) eqn:Eb.
  - apply andb_true_iff in Eb. destruct Eb as (-> & Eb). apply Nat.ltb_lt in Eb.
    destruct (prune_ok d l1 Hd NE HD1) as (x & r & -> & HP & _). exists r, true. split; [reflexivity|].
    assert (Hr : forall z, In z r -> exists y, In y l1 /\ core y = core z).
    { intros z Hz. apply (in_map core) in Hz. apply (in_cons (core x)) in Hz. apply (Permutation_in _ HP) in Hz.
      apply in_map_iff in Hz. destruct Hz as (y & E & Hy). eauto. }
    split; [|split].
    + intros z Hz. destruct (Hr z Hz) as (y & Hy & E). injection E as _ E. rewrite <- E. now apply HD1.
    + apply Permutation_length in HP. cbn in HP. rewrite !map_length in HP. lia.
    + intros z Hz. destruct (Hr z Hz) as (y & Hy & E). exists y. split; [now apply Hi | exact E].
  - exists l1, b. split; [reflexivity|]. split; [exact HD1|]. split.
    + split; [exact L0|]. destruct b.
      * cbn in Eb. apply Nat.ltb_ge in Eb. exact Eb.
      * destruct (Hf eq_refl) as (_ & Lk & _). lia.
    + intros z Hz. exists z. split; [now apply Hi | reflexivity].
Qed.


Lemma leader_adds_ok d size : 1 <= d -> 1 <= size -> forall ps l, length l <= size -> all_dim d l_objs l -> all_dim d l_objs ps ->
  exists l', leader_adds size l ps = Some l' /\ length l' <= size /\ (l <> [] \/ ps <> [] -> l' <> []) /\
    forall x, In x l' -> exists y, In y (l ++ ps) /\ core y = core x.
Proof.
  intros Hd Hs. induction ps as [|p ps IH]; intros l Hl HD HP; cbn [leader_adds].
  - exists l. split; [reflexivity|]. split; [exact Hl|]. split; [tauto|]. intros x Hx. exists x. rewrite app_nil_r. auto.
  - destruct (leader_add_ok d size l p Hd Hs Hl HD) as (l1 & b & -> & HD1 & L1 & Hi); [apply HP; now left|].
    destruct (IH l1) as (l' & E & L' & NE & Hi'); [lia | exact HD1 | intros x Hx; apply HP; now right|].
    exists l'. split; [exact E|]. split; [exact L'|]. split; [intros _; apply NE; left; destruct l1; [cbn in L1; lia | discriminate]|].
    intros x Hx. destruct (Hi' x Hx) as (y & Hy & Ey). apply in_app_or in Hy. destruct Hy as [Hy|Hy].
    + destruct (Hi y Hy) as (z & Hz & Ez). exists z. split; [|congruence]. apply in_or_app. destruct Hz as [<-|Hz]; [right; now left | now left].
    + exists y. split; [|exact Ey]. apply in_or_app. right; now right.
Qed.

(** ---- the driver ---- *)
Lemma comp_run {A B} (f : A -> option B) (Post : A -> B -> Prop) l : (forall x, In x l -> exists y, f x = Some y /\ Post x y) ->
  exists r, comprehension f l = Some r /\ Forall2 Post l r.
Proof.
  induction l as [|a l IH]; intros H; cbn [comprehension]; [exists []; auto|].
  destruct (H a) as (y & -> & Hy); [now left|]. destruct IH as (r & -> & F); [intros x Hx; apply H; now right|].
  exists (y :: r). auto.
Qed.

Lemma new_speed_ok f : forall n j s b v g, length s = n -> length b = n -> length v = n -> length g = n ->
  exists r, new_speed f n j s b v g = Some r /\ length r = n /\
    forall i s0 b0 v0 g0, nth_error s i = Some s0 -> nth_error b i = Some b0 -> nth_error v i = Some v0 -> nth_error g i = Some g0 ->
      nth_error r i = Some (f (j + i) s0 b0 v0 g0).
Proof.
  induction n as [|n IH]; intros j s b v g Ls Lb Lv Lg; cbn [new_speed].
  - destruct s; [|discriminate]. exists []. split; [reflexivity|]. split; [reflexivity|]. intros [|i]; discriminate.
  - destruct s as [|s0 s], b as [|b0 b], v as [|v0 v], g as [|g0 g]; try discriminate.
    destruct (IH (S j) s b v g) as (r & -> & L & H); try (cbn in *; lia).
    eexists. split; [reflexivity|]. split; [cbn; lia|]. intros [|i] s1 b1 v1 g1 E1 E2 E3 E4; cbn in *.
    + rewrite Nat.add_0_r. congruence.
    + rewrite <- Nat.add_succ_comm. exact (H i s1 b1 v1 g1 E1 E2 E3 E4).
Qed.

Lemma choose_leader_ok leaders pick : 1 <= length leaders ->
  (1 < length leaders -> fst pick < length leaders /\ snd pick < length leaders) ->
  exists g, choose_leader leaders pick = Some g /\ In g leaders.
Proof.
  intros L H. unfold choose_leader. destruct (Nat.ltb_spec 1 (length leaders)) as [L1|L1].
  - destruct (H L1) as (H1 & H2).
    destruct (nth_error leaders (fst pick)) as [a|] eqn:Ea; [|apply nth_error_None in Ea; lia].
    destruct (nth_error leaders (snd pick)) as [b|] eqn:Eb; [|apply nth_error_None in Eb; lia].
    eexists. split; [reflexivity|]. destruct (crowd_lt _ _); eapply nth_error_In; eassumption.
  - destruct leaders as [|g ?]; [cbn in L; lia|]. exists g. split; [reflexivity | now left].
Qed.

Section Update.
  Variables (d size : nat) (en ed : Z).
  Hypothesis Hd : 1 <= d.
  Hypothesis Hs : 1 <= size.
  Lemma update_leaders_ok : forall (ps : list particle) (L A : list leader),
    Forall (fun p => length (objectives p) = d) ps -> all_dim d l_objs L -> all_dim d l_objs A -> length L <= size ->
    exists L' A', update_leaders size en ed ps (L, A) = Some (L', A') /\ all_dim d l_objs L' /\ all_dim d l_objs A' /\ length L' <= size /\
      (L <> [] \/ ps <> [] -> L' <> []) /\ (A <> [] \/ (L = [] /\ ps <> []) -> A' <> []) /\
      forall x, In x L' \/ In x A' -> exists y, (In y L \/ In y A \/ In y (map as_leader ps)) /\ core y = core x.
  Proof.
    induction ps as [|p ps IH]; intros L A HF HL HA Hl; cbn [update_leaders fst snd].
    - exists L, A. split; [reflexivity|]. split; [exact HL|]. split; [exact HA|]. split; [exact Hl|]. split; [tauto|]. split; [tauto|].
      intros x Hx. exists x. tauto.
    - inversion HF as [|? ? Hp HF']; subst.
      destruct (leader_add_ok (length (objectives p)) size L (as_leader p) Hd Hs Hl HL eq_refl) as (L1 & b & E & HL1 & Len1 & Hi). rewrite E.
      destruct b.
      + destruct (archive_add_ok en ed (length (objectives p)) A (as_leader p) HA eq_refl) as (A1 & b' & E' & HA1 & HiA & _ & _ & NEA). rewrite E'.
        destruct (IH L1 A1 HF' HL1 HA1) as (L' & A' & E2 & H1 & H2 & H3 & H4 & H5 & H6); [lia|].
        exists L', A'. split; [exact E2|]. split; [exact H1|]. split; [exact H2|]. split; [exact H3|].
        split; [intros _; apply H4; left; destruct L1; [cbn in Len1; lia | discriminate]|].
        split; [intros _; apply H5; now left|].
        intros x Hx. destruct (H6 x Hx) as (y & Hy & Ey). destruct Hy as [Hy|[Hy|Hy]].
        * destruct (Hi y Hy) as (z & Hz & Ez). exists z. split; [|congruence]. cbn [map In] in *. destruct Hz as [<-|Hz]; auto.
        * exists y. split; [|exact Ey]. specialize (HiA y Hy). cbn [map In] in *. destruct HiA as [<-|HiA]; auto.
        * exists y. split; [|exact Ey]. cbn [map In]. auto.
      + destruct (IH L1 A HF' HL1 HA) as (L' & A' & E2 & H1 & H2 & H3 & H4 & H5 & H6); [lia|].
        exists L', A'. split; [exact E2|]. split; [exact H1|]. split; [exact H2|]. split; [exact H3|].
        split; [intros _; apply H4; left; destruct L1; [cbn in Len1; lia | discriminate]|].
        split.
        * intros [HA0|(-> & _)]; [apply H5; now left|]. exfalso. unfold leader_add, archive_add in E. cbn [scan app] in E.
          cbn [andb length] in E. destruct (Nat.ltb_spec size 1); [lia|]. discriminate.
        * intros x Hx. destruct (H6 x Hx) as (y & Hy & Ey). destruct Hy as [Hy|[Hy|Hy]].
          -- destruct (Hi y Hy) as (z & Hz & Ez). exists z. split; [|congruence]. cbn [map In] in *. destruct Hz as [<-|Hz]; auto.
          -- exists y. split; [|exact Ey]. auto.
          -- exists y. split; [|exact Ey]. cbn [map In]. auto.
  Qed.
End Update.

Section Driver.
  Variable P : params.
  Hypothesis box_ok : valid_box (p_dims P).
  Hypothesis trim_ok : forall v, in_box (p_dims P) v -> in_box (p_dims P) (p_trim P v).
  Hypothesis f_dim : forall v, length (p_f P v) = p_m P.
  Hypothesis m_pos : 1 <= p_m P.
  Variable fa : option (list (vec * vec)).
  Hypothesis fa_ok : forall m k o, fa = Some m -> lookup k m = Some o -> o = p_f P k.
  Variables en ed : Z.

  (** in the box and on the grid of the trim function *)
  Definition inside (v : vec) : Prop := in_box (p_dims P) v /\ exists w, v = p_trim P w.
  Lemma inside_length v : inside v -> length v = length (p_dims P).
  Proof. intros (H & _). now apply in_box_length. Qed.
  Lemma inside_trim v : in_box (p_dims P) v -> inside (p_trim P v).
  Proof. intros H. split; [auto | eauto]. Qed.

  (** a particle between steps *)
  Definition part_ok (p : particle) : Prop :=
    inside (value p) /\ length (speed p) = length (p_dims P) /\ objectives p = p_f P (value p) /\
    In (value p) (visited p) /\ Forall (inside) (visited p) /\
    (exists b rest, bests p = (b, p_f P b) :: rest /\ In b (visited p) /\
       (forall v, In v (visited p) -> ~ pareto_dom (p_f P v) (p_f P b))) /\
    Forall (fun b => snd b = p_f P (fst b) /\ In (fst b) (visited p)) (bests p) /\ improving (map snd (bests p)).

  Definition evaluated (p : particle) : particle :=
    {| value := value p; speed := speed p; objectives := p_f P (value p); bests := bests p; visited := value p :: visited p |}.

  Lemma om_evaluate_spec ps tr : exists c more, om_evaluate P fa ps tr = (map evaluated ps, (c, tr ++ more)) /\
    incl more (map value ps) /\ (fa = None -> c = length ps /\ more = map value ps).
  Proof.
    unfold om_evaluate. rewrite sms_objectives_spec.
    exists (match rev (map value ps) with [] => 0 | v :: _ => if hit fa v then 0 else length ps end), (filter (fun v => negb (hit fa v)) (map value ps)).
    split; [|split].
    - f_equal. induction ps as [|p ps IH]; cbn [map combine]; [reflexivity|]. f_equal; [|exact IH].
      unfold set_objectives, evaluated. cbn [fst snd m_objectives]. f_equal. destruct fa as [m|] eqn:Ef; [|reflexivity].
      destruct (lookup (value p) m) as [o|] eqn:El; [|reflexivity]. now apply (fa_ok m).
    - intros v Hv. apply filter_In in Hv. tauto.
    - intros ->. split.
      + destruct (rev (map value ps)) as [|v r] eqn:Er; [|reflexivity]. apply (f_equal (@length vec)) in Er. rewrite rev_length, map_length in Er. exact (eq_sym Er).
      + apply filter_all. reflexivity.
  Qed.

  Definition visits (ps : list particle) : list vec := concat (map visited ps).
  (** a member of an archive *)
  Definition sound (seen : list vec) (l : leader) : Prop :=
    l_objs l = p_f P (l_value l) /\ inside (l_value l) /\ In (l_value l) seen.

  (** [past]: vectors that were evaluated by particles that have left since *)
  Definition om_ok_from (past : list vec) (n : nat) (s : om_state) : Prop :=
    length (om_particles s) = n /\ om_size s = n /\ Forall part_ok (om_particles s) /\
    1 <= length (om_leaders s) <= n /\ Forall (sound (past ++ visits (om_particles s))) (om_leaders s) /\
    om_archive s <> [] /\ Forall (sound (past ++ visits (om_particles s))) (om_archive s) /\
    Forall (inside) (om_evals s) /\ (fa = None -> om_cost s = length (om_evals s)).
  Definition om_ok : nat -> om_state -> Prop := om_ok_from [].

  Lemma sound_core seen x y : core x = core y -> sound seen x -> sound seen y.
  Proof. unfold core, sound. intros E. injection E as E1 E2. rewrite E1, E2. auto. Qed.

  Lemma sound_dim seen l : Forall (sound seen) l -> all_dim (p_m P) l_objs l.
  Proof. intros H x Hx. rewrite Forall_forall in H. destruct (H x Hx) as (-> & _). apply f_dim. Qed.

  (** what a step does to one particle *)
  Definition particle_step (p p' : particle) : Prop :=
    visited p' = value p' :: visited p /\ part_ok p' /\
    ((bests p' = bests p /\ forall b rest, bests p = b :: rest -> ~ pareto_dom (p_f P (value p')) (snd b)) \/
     (exists b rest, bests p = b :: rest /\ bests p' = (value p', p_f P (value p')) :: bests p /\ pareto_dom (p_f P (value p')) (snd b))).

  Lemma om_step_ok_from past n s D : 1 <= n -> om_ok_from past n s -> om_good D s ->
    exists s', om_step P en ed fa D s = Some s' /\ om_ok_from past n s' /\
      Forall2 particle_step (om_particles s) (om_particles s') /\
      (exists more, om_evals s' = om_evals s ++ more /\ incl more (map value (om_particles s')) /\
        (fa = None -> more = map value (om_particles s'))).
  Proof.
    intros Hn (I1 & I2 & I3 & I4 & I5 & I6 & I7 & I8 & I9) HG. unfold om_step.
    set (ps := om_particles s) in *.
    assert (S1 : exists ps1, comprehension (speed_up P D (om_leaders s)) (combine (seq 0 (length ps)) ps) = Some ps1 /\
      Forall2 (fun p p1 => value p1 = value p /\ length (speed p1) = length (p_dims P) /\ bests p1 = bests p /\ visited p1 = visited p) ps ps1).
    { destruct (comp_run (speed_up P D (om_leaders s)) (fun kp p1 => value p1 = value (snd kp) /\ length (speed p1) = length (p_dims P) /\ bests p1 = bests (snd kp) /\ visited p1 = visited (snd kp)) (combine (seq 0 (length ps)) ps)) as (r & E & F).
      - intros (k & p) Hkp. pose proof (in_combine_l _ _ _ _ Hkp) as Hk. apply in_seq in Hk. apply in_combine_r in Hkp.
        rewrite Forall_forall in I3. destruct (I3 p Hkp) as (Q1 & Q2 & _ & _ & Q4 & (b & rest & Eb & Hb & _) & _).
        destruct (choose_leader_ok (om_leaders s) (om_pick D k)) as (g & Eg & Hg); [lia | intros L; apply HG; [change (k < length ps); lia | exact L]|].
        cbn [speed_up snd]. rewrite Eg, Eb.
        rewrite Forall_forall in I5, Q4. destruct (I5 g Hg) as (_ & Gb & _).
        destruct (new_speed_ok (om_speed D k) (length (p_dims P)) 0 (speed p) b (value p) (l_value g) Q2) as (r & -> & Lr & _);
          try (apply inside_length; auto; fail).
        eexists. split; [reflexivity|]. cbn. auto.
      - exists r. split; [exact E|]. clear -F. revert F. generalize 0. revert r. induction ps as [|p ps IH]; intros r k F; cbn in F; inversion F; subst; constructor; eauto. }
    destruct S1 as (ps1 & -> & F1).
    assert (S2 : exists ps2, comprehension (moved_particle P) ps1 = Some ps2 /\
      Forall2 (fun p p2 => inside (value p2) /\ length (speed p2) = length (p_dims P) /\ bests p2 = bests p /\ visited p2 = visited p) ps ps2).
    { destruct (comp_run (moved_particle P) (fun p1 p2 => inside (value p2) /\ length (speed p2) = length (p_dims P) /\ bests p2 = bests p1 /\ visited p2 = visited p1) ps1) as (r & E & F).
      - intros p1 Hp1. destruct (Forall2_In_r _ _ _ _ F1 Hp1) as (p & Hp & (E1 & L1 & _)).
        rewrite Forall_forall in I3. destruct (I3 p Hp) as (Q1 & _).
        destruct (move_ok (p_dims P) (value p1) (speed p1) box_ok) as (v & sp & Em & Hb & Ls & _).
        + rewrite E1. now apply inside_length.
        + exact L1.
        + unfold moved_particle. rewrite Em. eexists. split; [reflexivity|]. cbn. split; [now apply inside_trim|]. auto.
      - exists r. split; [exact E|]. clear -F1 F. revert r F. induction F1 as [|p p1 ps ps1 (H1 & H2 & H3 & H4) F1 IH]; intros r F; inversion F as [|? ? ? ? (G1 & G2 & G3 & G4) F']; subst; constructor; [|auto].
        split; [exact G1|]. split; [exact G2|]. split; congruence. }
    destruct S2 as (ps2 & -> & F2).
    destruct (om_evaluate_spec ps2 (om_evals s)) as (c & more & -> & Hmore & Hnone).
    set (ps3 := map evaluated ps2).
    assert (F3 : Forall2 (fun p p3 => inside (value p3) /\ length (speed p3) = length (p_dims P) /\ bests p3 = bests p /\
       visited p3 = value p3 :: visited p /\ objectives p3 = p_f P (value p3)) ps ps3).
    { unfold ps3. clear -F2. induction F2 as [|p p2 ps ps2 (H1 & H2 & H3 & H4) F2 IH]; cbn [map]; constructor; [|exact IH].
      cbn. rewrite H4. auto. }
    assert (Hsz : 1 <= om_size s) by (rewrite I2; exact Hn).
    destruct (update_leaders_ok (p_m P) (om_size s) en ed m_pos Hsz ps3 (om_leaders s) (om_archive s)) as (L' & A' & -> & U1 & U2 & U3 & U4 & U5 & U6).
    { apply Forall_forall. intros p3 Hp3. unfold ps3 in Hp3. apply in_map_iff in Hp3. destruct Hp3 as (p2 & <- & _). apply f_dim. }
    { eapply sound_dim; eassumption. } { eapply sound_dim; eassumption. } { lia. }
    assert (S4 : exists ps4, comprehension update_best ps3 = Some ps4 /\ Forall2 particle_step ps ps4 /\ map value ps4 = map value ps3 /\ map visited ps4 = map visited ps3).
    { destruct (comp_run update_best (fun p3 p4 => value p4 = value p3 /\ visited p4 = visited p3 /\ forall p, In p ps ->
        inside (value p3) /\ length (speed p3) = length (p_dims P) /\ bests p3 = bests p /\ visited p3 = value p3 :: visited p /\ objectives p3 = p_f P (value p3) ->
        particle_step p p4) ps3) as (r & E & F).
      - intros p3 Hp3. destruct (Forall2_In_r _ _ _ _ F3 Hp3) as (p0 & Hp0 & (E1 & E2 & E3 & E4 & E5)).
        rewrite Forall_forall in I3. destruct (I3 p0 Hp0) as (_ & _ & _ & _ & _ & (b & rest & Eb & _) & _).
        assert (UB : update_best p3 = if dominates (p_f P (value p3)) (p_f P b) then Some (record_best p3) else Some p3).
        { unfold update_best. rewrite E3, Eb, E5. rewrite omopso_dominates_zero by (rewrite !f_dim; reflexivity). destruct (dominates _ _); reflexivity. }
        rewrite UB. clear UB. destruct (dominates (p_f P (value p3)) (p_f P b)) eqn:Dm.
        + apply dominates_spec in Dm; [|rewrite !f_dim; reflexivity].
          exists (record_best p3). split; [reflexivity|]. split; [reflexivity|]. split; [reflexivity|].
          intros p Hp (G1 & G2 & G3 & G4 & G5). destruct (I3 p Hp) as (Q1 & Q2 & Q3 & Q4 & Q5 & (b' & rest' & Eb' & Hb' & Hbest) & Q6 & Q7).
          rewrite E3, Eb in G3. rewrite Eb' in G3. injection G3 as -> _ ->.
          split; [exact G4|]. split.
          * split; [exact G1|]. split; [exact G2|]. split; [exact G5|]. split; [cbn; rewrite G4; now left|].
            split; [cbn; rewrite G4; constructor; assumption|]. split; [|split].
            -- exists (value p3), (bests p3). split; [cbn; now rewrite G5|]. split; [cbn; rewrite G4; now left|].
               cbn [record_best visited]. rewrite G4. intros v [<-|Hv] Hd; [now apply pareto_dom_irrefl in Hd|].
               apply (Hbest v Hv). eapply pareto_dom_trans; eassumption.
            -- cbn [record_best bests visited]. rewrite E3, Eb, <- Eb', G4. constructor.
               ++ cbn. split; [exact G5 | now left].
               ++ eapply Forall_impl; [|exact Q6]. cbn. intros x (X1 & X2). auto.
            -- cbn [record_best bests map snd]. rewrite E3, Eb. cbn [map snd]. rewrite Eb' in Q7. cbn [map snd] in Q7. split; [rewrite G5; exact Dm | exact Q7].
          * right. exists (b', p_f P b'), rest'. split; [exact Eb'|]. cbn. split; [rewrite E3, Eb, G5, <- Eb'; reflexivity | exact Dm].
        + assert (ND : ~ pareto_dom (p_f P (value p3)) (p_f P b)) by (rewrite <- dominates_spec by (rewrite !f_dim; reflexivity); congruence).
          exists p3. split; [reflexivity|]. split; [reflexivity|]. split; [reflexivity|].
          intros p Hp (G1 & G2 & G3 & G4 & G5). destruct (I3 p Hp) as (Q1 & Q2 & Q3 & Q4 & Q5 & (b' & rest' & Eb' & Hb' & Hbest) & Q6 & Q7).
          pose proof G3 as G3'. rewrite E3, Eb in G3. rewrite Eb' in G3. injection G3 as -> _ ->.
          split; [exact G4|]. split.
          * split; [exact G1|]. split; [exact G2|]. split; [exact G5|]. split; [rewrite G4; now left|].
            split; [rewrite G4; constructor; assumption|]. rewrite G3'. split; [|split].
            -- exists b', rest'. split; [exact Eb'|]. split; [rewrite G4; now right|].
               rewrite G4. intros v [<-|Hv] Hd; [now apply ND | now apply (Hbest v Hv)].
            -- rewrite G4. eapply Forall_impl; [|exact Q6]. cbn. intros x (X1 & X2). auto.
            -- exact Q7.
          * left. split; [exact G3'|]. intros b0 r0 E0. rewrite Eb' in E0. injection E0 as <- <-. exact ND.
      - exists r. split; [exact E|]. clear -F3 F. revert r F.
        assert (X : forall qs, Forall2 (fun p p3 => inside (value p3) /\ length (speed p3) = length (p_dims P) /\ bests p3 = bests p /\
            visited p3 = value p3 :: visited p /\ objectives p3 = p_f P (value p3)) qs ps3 -> incl qs ps -> forall r,
          Forall2 (fun p3 p4 => value p4 = value p3 /\ visited p4 = visited p3 /\ forall p, In p ps ->
            inside (value p3) /\ length (speed p3) = length (p_dims P) /\ bests p3 = bests p /\ visited p3 = value p3 :: visited p /\ objectives p3 = p_f P (value p3) ->
            particle_step p p4) ps3 r -> Forall2 particle_step qs r /\ map value r = map value ps3 /\ map visited r = map visited ps3).
        { clear F3. generalize ps3 as p3s. intros p3s qs F3. induction F3 as [|p p3 qs p3s H F3 IH]; intros Hi r F; inversion F as [|? ? ? ? (G0 & G1 & G2) F']; subst.
          - auto.
          - destruct (IH ltac:(intros x Hx; apply Hi; now right) _ F') as (X1 & X2 & X3).
            split; [constructor; [apply G2; [apply Hi; now left | exact H] | exact X1]|]. cbn [map]. split; congruence. }
        intros r F. apply (X ps F3 (incl_refl _) r F). }
    destruct S4 as (ps4 & -> & F4 & EV & EW).
    destruct (crowding_ok (p_m P) L') as (L'' & -> & HP & _); [apply U4; left; destruct (om_leaders s); [cbn in I4; lia | discriminate] | exact U1|].
    eexists. split; [reflexivity|]. cbn [om_particles om_leaders om_archive om_size om_cost om_evals].
    assert (VV : forall v, In v (visits ps) -> In v (visits ps4)).
    { unfold visits. rewrite EW. intros v Hv. apply in_concat in Hv. destruct Hv as (w & Hw & Hv). apply in_map_iff in Hw. destruct Hw as (p & <- & Hp).
      apply in_concat. apply In_nth_error in Hp. destruct Hp as (i & Hi).
      destruct (nth_error ps3 i) as [p3|] eqn:E3; [|apply nth_error_None in E3; apply nth_error_Some' in Hi; rewrite <- (Forall2_length' _ _ _ F3) in E3; lia].
      exists (visited p3). split; [apply in_map; eapply nth_error_In; eauto|]. apply Forall2_nth_error in F3. destruct F3 as (_ & F3).
      destruct (F3 i p p3 Hi E3) as (_ & _ & _ & -> & _). now right. }
    assert (SND : forall x, In x L' \/ In x A' -> sound (past ++ visits ps4) x).
    { intros x Hx. destruct (U6 x Hx) as (y & Hy & Ey). apply (sound_core _ y x Ey). destruct Hy as [Hy|[Hy|Hy]].
      - rewrite Forall_forall in I5. destruct (I5 y Hy) as (B1 & B2 & B3). split; [exact B1|]. split; [exact B2|]. apply in_app_iff in B3. apply in_app_iff. destruct B3; auto.
      - rewrite Forall_forall in I7. destruct (I7 y Hy) as (B1 & B2 & B3). split; [exact B1|]. split; [exact B2|]. apply in_app_iff in B3. apply in_app_iff. destruct B3; auto.
      - apply in_map_iff in Hy. destruct Hy as (p3 & <- & Hp3). destruct (Forall2_In_r _ _ _ _ F3 Hp3) as (p & _ & (E1 & _ & _ & E4 & E5)).
        split; [exact E5|]. split; [exact E1|]. cbn [as_leader l_value]. apply in_app_iff. right. unfold visits. rewrite EW. apply in_concat. exists (visited p3). split; [now apply in_map|]. rewrite E4. now left. }
    assert (L4 : length ps4 = n) by (rewrite <- I1; symmetry; eapply Forall2_length'; exact F4).
    assert (EM : map value ps2 = map value ps4) by (rewrite EV; unfold ps3; rewrite map_map; apply map_ext; reflexivity).
    assert (LL : length L'' = length L') by (apply Permutation_length in HP; rewrite !map_length in HP; exact HP).
    assert (L0 : 1 <= length L') by (destruct L'; [exfalso; apply U4; [left; destruct (om_leaders s); [cbn in I4; lia | discriminate] | reflexivity] | cbn; lia]).
    split; [|split; [exact F4|]].
    - split; [exact L4|]. split; [exact I2|]. split.
      { apply Forall_forall. intros p4 Hp4. destruct (Forall2_In_r _ _ _ _ F4 Hp4) as (p & _ & (_ & Hpo & _)). exact Hpo. }
      cbn [om_particles om_leaders om_archive om_size om_cost om_evals]. split; [rewrite LL; rewrite I2 in U3; split; [exact L0 | exact U3]|]. split.
      { apply Forall_forall. intros x Hx. destruct (perm_core_In _ _ x HP Hx) as (y & Hy & Ey). apply (sound_core _ y x Ey). auto. }
      split; [apply U5; now left|]. split; [apply Forall_forall; auto|]. split.
      + apply Forall_app. split; [exact I8|]. rewrite EM in Hmore. apply Forall_forall. intros v Hv. apply Hmore in Hv. apply in_map_iff in Hv.
        destruct Hv as (p4 & <- & Hp4). destruct (Forall2_In_r _ _ _ _ F4 Hp4) as (p & _ & (_ & (Hb & _) & _)). exact Hb.
      + intros Hf. destruct (Hnone Hf) as (-> & ->). rewrite app_length, map_length, I9 by exact Hf. reflexivity.
    - exists more. split; [reflexivity|]. rewrite <- EM. split; [exact Hmore|]. intros Hf. apply Hnone, Hf.
  Qed.

  Lemma om_step_ok n s D : 1 <= n -> om_ok n s -> om_good D s ->
    exists s', om_step P en ed fa D s = Some s' /\ om_ok n s' /\
      Forall2 particle_step (om_particles s) (om_particles s') /\
      (exists more, om_evals s' = om_evals s ++ more /\ incl more (map value (om_particles s')) /\
        (fa = None -> more = map value (om_particles s'))).
  Proof. apply om_step_ok_from. Qed.

  Notation om_goods := (OmopsoSpec.om_goods P fa en ed).

  Lemma om_steps_ok n Ds : 1 <= n -> forall s, om_ok n s -> om_goods Ds s ->
    exists s', om_steps P en ed fa Ds s = Some s' /\ om_ok n s' /\
      (fa = None -> om_cost s' = om_cost s + n * length Ds) /\
      Forall2 (fun p p' => exists more, visited p' = more ++ visited p /\ length more = length Ds) (om_particles s) (om_particles s').
  Proof.
    intros Hn. induction Ds as [|D Ds IH]; intros s Hs HG; cbn [om_steps].
    - exists s. split; [reflexivity|]. split; [exact Hs|]. split; [intros _; cbn; lia|].
      induction (om_particles s); constructor; [exists []; auto | auto].
    - destruct HG as (HD & HG). destruct (om_step_ok n s D Hn Hs HD) as (s1 & E & Ok1 & F & (more & Em & _ & Hm)). rewrite E.
      destruct (IH s1 Ok1 (HG s1 E)) as (s2 & E2 & Ok2 & C2 & F2). exists s2. split; [exact E2|]. split; [exact Ok2|]. split.
      + intros Hf. rewrite C2 by exact Hf. destruct Hs as (_ & _ & _ & _ & _ & _ & _ & _ & Hc). destruct Ok1 as (L1 & _ & _ & _ & _ & _ & _ & _ & Hc1).
        rewrite Hc, Hc1 by exact Hf. rewrite Em, (Hm Hf), app_length, map_length, L1. cbn [length]. lia.
      + clear -F F2. revert F2. generalize (om_particles s2). induction F as [|p p1 ps ps1 (H & _) F IH]; intros ps2 F2; inversion F2 as [|? ? ? ? (m & Em & Lm) F2']; subst; constructor; [|auto].
        exists (m ++ [value p1]). rewrite Em, H, <- app_assoc, app_length. cbn. split; [reflexivity | lia].
  Qed.

  Lemma om_init_ok population : population <> [] -> Forall (in_box (p_dims P)) population ->
    exists s, om_init P en ed fa population = Some s /\ om_ok (length population) s /\
      (fa = None -> om_cost s = length population) /\ map value (om_particles s) = map (p_trim P) population /\
      Forall (fun p => visited p = [value p] /\ map fst (bests p) = [value p]) (om_particles s).
  Proof.
    intros NE Hb. unfold om_init. set (ps := map (fun v => new_particle (p_trim P v)) population).
    destruct (om_evaluate_spec ps []) as (c & more & -> & Hm & Hnone). cbn [app].
    assert (Hn : 1 <= length population) by (destruct population; [contradiction | cbn; lia]).
    destruct (update_leaders_ok (p_m P) (length population) en ed m_pos Hn (map evaluated ps) [] []) as (L' & A' & -> & U1 & U2 & U3 & U4 & U5 & U6).
    { apply Forall_forall. intros p Hp. apply in_map_iff in Hp. destruct Hp as (q & <- & _). apply f_dim. }
    { intros x []. } { intros x []. } { cbn. lia. }
    assert (NP : map evaluated ps <> []) by (unfold ps; destruct population; [contradiction | discriminate]).
    destruct (crowding_ok (p_m P) L') as (L'' & -> & HP & _); [apply U4; now right | exact U1|].
    assert (PO : Forall part_ok (map record_best (map evaluated ps))).
    { apply Forall_forall. intros p Hp. unfold ps in Hp. rewrite !map_map in Hp. apply in_map_iff in Hp. destruct Hp as (v & <- & Hv).
      rewrite Forall_forall in Hb. assert (B : inside (p_trim P v)) by (apply inside_trim; auto).
      unfold part_ok. cbn. split; [exact B|]. split; [rewrite repeat_length; now apply inside_length|]. split; [reflexivity|]. split; [now left|].
      split; [auto|]. split; [|split; [constructor; [cbn; auto | constructor] | exact I]].
      exists (p_trim P v), []. split; [reflexivity|]. split; [now left|]. intros w [<-|[]]. apply pareto_dom_irrefl. }
    eexists. split; [reflexivity|]. split; [|split; [|split]].
    - assert (SND : forall x, In x L' \/ In x A' -> sound (visits (map record_best (map evaluated ps))) x).
      { intros x Hx. destruct (U6 x Hx) as (y & Hy & Ey). apply (sound_core _ y x Ey). destruct Hy as [[]|[[]|Hy]].
        apply in_map_iff in Hy. destruct Hy as (p & <- & Hp). pose proof Hp as Hp'. apply in_map_iff in Hp. destruct Hp as (q & <- & Hq).
        split; [reflexivity|]. apply (in_map record_best) in Hp'. rewrite Forall_forall in PO. split.
        - destruct (PO _ Hp') as (B & _). exact B.
        - unfold visits. apply in_concat. exists (visited (record_best (evaluated q))). split; [now apply in_map | now left]. }
      cbn [om_particles om_leaders om_archive om_size om_cost om_evals].
      split; [cbn [om_particles]; unfold ps; now rewrite !map_length|]. split; [reflexivity|]. split; [exact PO|]. cbn [om_particles om_leaders om_archive om_size om_cost om_evals].
      assert (LL : length L'' = length L') by (apply Permutation_length in HP; rewrite !map_length in HP; exact HP).
      assert (L0 : L' <> []) by (apply U4; now right).
      split; [destruct L'; [contradiction | cbn in *; lia]|]. split.
      { apply Forall_forall. intros x Hx. destruct (perm_core_In _ _ x HP Hx) as (y & Hy & Ey). apply (sound_core _ y x Ey). auto. }
      split; [apply U5; right; auto|]. split; [apply Forall_forall; auto|]. split.
      + apply Forall_forall. intros v Hv. apply Hm in Hv. unfold ps in Hv. rewrite map_map in Hv. cbn in Hv. apply in_map_iff in Hv. destruct Hv as (w & <- & Hw).
        rewrite Forall_forall in Hb. apply inside_trim; auto.
      + intros Hf. destruct (Hnone Hf) as (-> & ->). now rewrite map_length.
    - cbn. intros Hf. destruct (Hnone Hf) as (-> & _). unfold ps. now rewrite map_length.
    - cbn. unfold ps. rewrite !map_map. reflexivity.
    - cbn. unfold ps. apply Forall_forall. intros p Hp. rewrite !map_map in Hp. apply in_map_iff in Hp. destruct Hp as (v & <- & _). split; reflexivity.
  Qed.

  Lemma om_setter_raises pop D s : pop <> [] -> om_step P en ed fa D (om_set_population pop s) = None.
  Proof.
    intros NE. unfold om_step. cbn [om_set_population om_particles om_leaders]. destruct pop as [|v pop]; [contradiction|].
    cbn [map length seq combine comprehension speed_up]. destruct (choose_leader _ _); reflexivity.
  Qed.
End Driver.

(** ---- a particle that improves in every step ---- *)
Definition slope (N : Z) : params :=
  {| p_dims := [(0, N)%Z]; p_f := fun v => [hd 0%Z v]; p_m := 1; p_trim := fun v => v; p_crossover_rate := 0%Z; p_mutation_rate := 0%Z;
     p_raw := fun _ _ _ _ => 0%Z; p_raw_a := fun _ _ _ _ _ => 0%Z; p_raw_b := fun _ _ _ _ _ => 0%Z;
     p_half := 0%Z; p_epsilon := 0%Z; p_eps := 0%Q; p_iter := fun _ l => l |}.
Definition downhill : om_draws := {| om_pick := fun _ => (0, 0); om_speed := fun _ _ _ _ _ _ => (-1)%Z |}.

Section Slope.
  Variable N : Z.
  Hypothesis HN : (0 <= N)%Z.
  Variables en ed : Z.
  Let bx : valid_box (p_dims (slope N)).
  Proof. repeat constructor. exact HN. Qed.
  Let tr : forall v, in_box (p_dims (slope N)) v -> in_box (p_dims (slope N)) (p_trim (slope N) v).
  Proof. auto. Qed.
  Let fd : forall v, length (p_f (slope N) v) = p_m (slope N).
  Proof. reflexivity. Qed.
  Let fo : forall m k o, None = Some m -> lookup k m = Some o -> o = p_f (slope N) k.
  Proof. discriminate. Qed.

  Lemma slope_step s x p : om_ok (slope N) None 1 s -> om_particles s = [p] -> value p = [x] -> (1 <= x <= N)%Z ->
    (exists rest, bests p = ([x], [x]) :: rest) ->
    exists s' p', om_step (slope N) en ed None downhill s = Some s' /\ om_ok (slope N) None 1 s' /\ om_particles s' = [p'] /\
      value p' = [(x - 1)%Z] /\ bests p' = ([(x - 1)%Z], [(x - 1)%Z]) :: bests p.
  Proof.
    intros Ok Ep Ev Hx (rest & Eb).
    destruct (om_step_ok (slope N) bx tr fd (le_n 1) None fo en ed 1 s downhill (le_n 1) Ok) as (s' & E & Ok' & F & _).
    { intros k _ H. destruct Ok as (_ & _ & _ & L & _). lia. }
    rewrite Ep in F. assert (Q : exists p', om_particles s' = [p'] /\ particle_step (slope N) p p') by (inversion F as [|? p' ? ps1 PS F' X1 X2]; inversion F'; eauto).
    clear F. destruct Q as (p' & H0 & PS).
    destruct PS as (Hv & Hok & Hc).
    exists s', p'. split; [exact E|]. split; [exact Ok'|]. split; [auto|].
    assert (V : value p' = [(x - 1)%Z]).
    { unfold om_step in E. rewrite Ep in E. cbn [length seq combine comprehension] in E.
      destruct (speed_up (slope N) downhill (om_leaders s) (0, p)) as [p1|] eqn:E1; [|discriminate].
      unfold speed_up in E1. destruct (choose_leader _ _) as [g|]; [|discriminate]. rewrite Eb in E1.
      destruct (new_speed _ _ _ _ _ _ _) as [sp|] eqn:Es; [|discriminate]. injection E1 as <-.
      cbn [comprehension] in E. unfold moved_particle at 1 in E. cbn [value speed] in E. rewrite Ev in E.
      cbn [p_dims slope new_speed length] in Es. rewrite Ev in Es. destruct (speed p) as [|s0 sp0]; [discriminate|]. destruct (l_value g) as [|g0 gr]; [discriminate|].
      cbn in Es. injection Es as <-. cbn [move move_loop p_dims slope] in E.
      replace (Z.min (Z.max (x + -1) 0) N) with (x - 1)%Z in E by lia. cbn [p_trim slope] in E.
      unfold om_evaluate in E. cbn [map value length] in E. unfold sms_objectives in E. cbn [fold_left spea_evaluate app combine map] in E.
      destruct (update_leaders _ _ _ _ _) as [[L' A']|]; [|discriminate]. cbn [comprehension] in E.
      destruct (update_best _) as [p4|] eqn:E4; [|discriminate]. destruct (crowding L'); [|discriminate]. injection E as <-. cbn [om_particles] in H0. injection H0 as <-.
      unfold update_best in E4. cbn [bests set_objectives fst] in E4. destruct (omopso_dominates _ _ _ _) as [[]|]; [| |discriminate]; injection E4 as <-; reflexivity. }
    split; [exact V|]. destruct Hc as [(_ & Hc)|(b & r & _ & Hc & _)].
    - exfalso. apply (Hc _ _ Eb). rewrite V. cbn. split.
      + repeat constructor. lia.
      + exists 0, (x - 1)%Z, x. repeat split. lia.
    - rewrite Hc, V. reflexivity.
  Qed.

  Lemma slope_steps k : forall s x p, om_ok (slope N) None 1 s -> om_particles s = [p] -> value p = [x] -> (Z.of_nat k <= x <= N)%Z ->
    (exists rest, bests p = ([x], [x]) :: rest) ->
    exists s' p', om_steps (slope N) en ed None (repeat downhill k) s = Some s' /\ om_particles s' = [p'] /\
      length (bests p') = k + length (bests p).
  Proof.
    induction k as [|k IH]; intros s x p Ok Ep Ev Hx Hb; cbn [repeat om_steps].
    - exists s, p. auto.
    - destruct (slope_step s x p Ok Ep Ev ltac:(lia) Hb) as (s1 & p1 & -> & Ok1 & Ep1 & Ev1 & Eb1).
      destruct (IH s1 (x - 1)%Z p1 Ok1 Ep1 Ev1 ltac:(lia)) as (s' & p' & E & Ep' & L); [eauto|].
      exists s', p'. split; [exact E|]. split; [exact Ep'|]. rewrite L, Eb1. cbn. lia.
  Qed.

  Lemma slope_goods Ds : forall s, om_ok (slope N) None 1 s -> om_goods (slope N) None en ed Ds s.
  Proof.
    induction Ds as [|D Ds IH]; intros s Ok; cbn; [exact I|].
    assert (G : om_good D s) by (intros k _ H; destruct Ok as (_ & _ & _ & L & _); lia).
    split; [exact G|]. intros s' E. apply IH.
    destruct (om_step_ok (slope N) bx tr fd (le_n 1) None fo en ed 1 s D (le_n 1) Ok G) as (s1 & E1 & Ok1 & _).
    rewrite E in E1. injection E1 as <-. exact Ok1.
  Qed.

  Lemma slope_run k : (Z.of_nat k <= N)%Z -> exists s0 s p, om_init (slope N) en ed None [[N]] = Some s0 /\
    om_goods (slope N) None en ed (repeat downhill k) s0 /\
    om_steps (slope N) en ed None (repeat downhill k) s0 = Some s /\ om_particles s = [p] /\ length (bests p) = S k.
  Proof.
    intros Hk.
    destruct (om_init_ok (slope N) tr fd (le_n 1) None fo en ed [[N]]) as (s0 & E0 & Ok & _ & Hv & Hbv); [discriminate | repeat constructor; cbn; lia|].
    assert (Ep : exists p, om_particles s0 = [p] /\ value p = [N] /\ bests p = [([N], [N])]).
    { destruct (om_particles s0) as [|p [|q ps]] eqn:Eps; try discriminate. exists p. cbn in Hv. injection Hv as Hv. split; [reflexivity|]. split; [exact Hv|].
      inversion Hbv as [|? ? (_ & Hb) _]; subst. destruct Ok as (_ & _ & I3 & _). rewrite Eps in I3. inversion I3 as [|? ? Hp _]; subst.
      destruct Hp as (_ & _ & _ & _ & _ & (b & rest & Eb & _) & _). rewrite Eb in Hb. cbn in Hb. injection Hb as Hb1 Hb2. apply map_eq_nil in Hb2. subst.
      rewrite Eb, Hv. reflexivity. }
    destruct Ep as (p & Ep & Ev & Eb).
    destruct (slope_steps k s0 N p Ok Ep Ev ltac:(lia)) as (s & p' & E & Ep' & L); [exists []; exact Eb|].
    exists s0, s, p'. split; [exact E0|]. split; [now apply slope_goods|]. split; [exact E|]. split; [exact Ep'|]. rewrite L, Eb. cbn. lia.
  Qed.
End Slope.

Lemma improving_below f (l : list vec) : forall v, improving (f v :: map f l) -> forall w, In w l -> pareto_dom (f v) (f w).
Proof.
  induction l as [|a l IH]; intros v H w Hw; [contradiction|]. destruct H as (H1 & H2).
  destruct Hw as [<-|Hw]; [exact H1|]. eapply pareto_dom_trans; [exact H1 | now apply IH].
Qed.
Lemma improving_NoDup f (l : list vec) : improving (map f l) -> NoDup l.
Proof.
  induction l as [|a l IH]; intros H; constructor.
  - intros Hin. exact (pareto_dom_irrefl _ (improving_below f l a H a Hin)).
  - apply IH. destruct l; cbn in H |- *; tauto.
Qed.
Definition covered (A : list leader) (o : vec) : Prop := exists y, In y A /\ covers (l_objs y) o.

Lemma update_leaders_covers d size : 1 <= d -> 1 <= size -> forall (ps : list particle) (L A L' A' : list leader),
  Forall (fun p => length (objectives p) = d) ps -> all_dim d l_objs L -> all_dim d l_objs A -> length L <= size ->
  (forall x, In x L -> covered A (l_objs x)) ->
  update_leaders size 0 1 ps (L, A) = Some (L', A') ->
  (forall x, In x L' -> covered A' (l_objs x)) /\ (forall o, covered A o -> covered A' o) /\
  (forall p, In p ps -> covered A' (objectives p)).
Proof.
  intros Hd Hs. induction ps as [|p ps IH]; intros L A L' A' HF HL HA Hl HC E.
  - cbn in E. injection E as <- <-. split; [exact HC|]. split; [auto | intros p []].
  - inversion HF as [|? ? Hp HF']; subst. cbn [update_leaders fst snd] in E.
    destruct (leader_add_ok (length (objectives p)) size L (as_leader p) Hd Hs Hl HL eq_refl) as (L1 & b & E1 & HL1 & Len1 & Hi). rewrite E1 in E.
    destruct b.
    + destruct (archive_add_ok 0 1 (length (objectives p)) A (as_leader p) HA eq_refl) as (A1 & b' & E2 & HA1 & _). rewrite E2 in E.
      pose proof (archive_add_covers (length (objectives p)) A (as_leader p) A1 b' HA eq_refl E2) as C.
      assert (Mono : forall o, covered A o -> covered A1 o).
      { intros o (y & Hy & Ho). destruct (C y (or_intror Hy)) as (z & Hz & Hzy). exists z. split; [exact Hz | eapply covers_trans; eauto]. }
      assert (Cp : covered A1 (objectives p)) by exact (C (as_leader p) (or_introl eq_refl)).
      destruct (IH L1 A1 L' A' HF' HL1 HA1) as (R1 & R2 & R3); [lia | | exact E |].
      { intros x Hx. destruct (Hi x Hx) as (y & Hy & Ey). unfold core in Ey. injection Ey as _ Ey. rewrite <- Ey.
        destruct Hy as [<-|Hy]; [exact Cp | apply Mono, HC, Hy]. }
      split; [exact R1|]. split; [auto|]. intros q [<-|Hq]; auto.
    + assert (W : covered A (objectives p) /\ L1 = L1).
      { split; [|reflexivity]. unfold leader_add in E1.
        destruct (archive_add_ok 0 1 (length (objectives p)) L (as_leader p) HL eq_refl) as (l1 & b1 & Ea & _ & _ & _ & Hf & _). rewrite Ea in E1.
        destruct b1.
        - cbn [andb] in E1. destruct (size <? length l1); [destruct (prune l1)|]; discriminate.
        - destruct (Hf eq_refl) as (Hi' & _ & w & Hw & Hd'). specialize (Hi' w Hw).
          destruct (HC w Hi') as (y & Hy & Hyw). exists y. split; [exact Hy|]. eapply covers_trans; [exact Hyw|].
          destruct Hd' as [Hd'|Hd']; [right; apply edom_zero in Hd'; [exact Hd' | apply HL, Hi'] | left; now apply eobj_spec in Hd']. }
      destruct W as (W & _).
      destruct (IH L1 A L' A' HF' HL1 HA) as (R1 & R2 & R3); [lia | | exact E |].
      { intros x Hx. destruct (Hi x Hx) as (y & Hy & Ey). unfold core in Ey. injection Ey as _ Ey. rewrite <- Ey.
        destruct Hy as [<-|Hy]; [exact W | apply HC, Hy]. }
      split; [exact R1|]. split; [auto|]. intros q [<-|Hq]; auto.
Qed.

Section Run.
  Variable P : params.
  Hypothesis box_ok : valid_box (p_dims P).
  Hypothesis trim_ok : forall v, in_box (p_dims P) v -> in_box (p_dims P) (p_trim P v).
  Hypothesis f_dim : forall v, length (p_f P v) = p_m P.
  Hypothesis m_pos : 1 <= p_m P.
  Variable fa : option (list (vec * vec)).
  Hypothesis fa_ok : forall m k o, fa = Some m -> lookup k m = Some o -> o = p_f P k.

  Definition om_covers (s : om_state) : Prop :=
    (forall x, In x (om_leaders s) -> covered (om_archive s) (l_objs x)) /\
    (forall p v, In p (om_particles s) -> In v (visited p) -> covered (om_archive s) (p_f P v)).

  Lemma crowding_covered d l l' A : 1 <= d -> all_dim d l_objs l -> crowding l = Some l' ->
    (forall x, In x l -> covered A (l_objs x)) -> forall x, In x l' -> covered A (l_objs x).
  Proof.
    intros Hd HD E HC x Hx. destruct l as [|a l]; [discriminate|].
    destruct (crowding_ok d (a :: l) ltac:(discriminate) HD) as (l1 & E1 & HP & _). rewrite E in E1. injection E1 as <-.
    destruct (perm_core_In _ _ x HP Hx) as (y & Hy & Ey). unfold core in Ey. injection Ey as _ Ey. rewrite <- Ey. now apply HC.
  Qed.

  Lemma om_init_covers population s : population <> [] -> Forall (in_box (p_dims P)) population ->
    om_init P 0 1 fa population = Some s -> om_covers s.
  Proof.
    intros NE HB E.
    assert (Hn : 1 <= length population) by (destruct population; [contradiction | cbn; lia]).
    unfold om_init in E. set (ps := map (fun v => new_particle (p_trim P v)) population) in *.
    destruct (om_evaluate_spec P fa fa_ok ps []) as (c & more & Ee & _). rewrite Ee in E.
    assert (FD : Forall (fun p => length (objectives p) = p_m P) (map (evaluated P) ps)).
    { apply Forall_forall. intros p Hp. apply in_map_iff in Hp. destruct Hp as (q & <- & _). apply f_dim. }
    destruct (update_leaders_ok (p_m P) (length population) 0 1 m_pos Hn (map (evaluated P) ps) [] [] FD) as (L & A & Eu & HL & _); [intros x [] | intros x [] | cbn; lia|].
    rewrite Eu in E.
    destruct (update_leaders_covers (p_m P) (length population) m_pos Hn (map (evaluated P) ps) [] [] L A FD) as (C1 & _ & C2); [intros x [] | intros x [] | cbn; lia | intros x [] | exact Eu |].
    destruct (crowding L) as [L'|] eqn:Ec; [|discriminate]. injection E as <-. split; cbn [om_leaders om_archive om_particles].
    - exact (crowding_covered _ _ _ _ m_pos HL Ec C1).
    - intros p v Hp Hv. apply in_map_iff in Hp. destruct Hp as (q & <- & Hq). cbn [visited record_best] in Hv.
      specialize (C2 q Hq). apply in_map_iff in Hq. destruct Hq as (r & <- & Hr). apply in_map_iff in Hr. destruct Hr as (w & <- & _).
      cbn in Hv. destruct Hv as [<-|[]]. exact C2.
  Qed.

  Lemma om_step_covers n s D s' : 1 <= n -> om_ok P fa n s -> om_good D s -> om_covers s ->
    om_step P 0 1 fa D s = Some s' -> om_covers s'.
  Proof.
    intros Hn Ok HG (C1 & C2) E.
    destruct (om_step_ok P box_ok trim_ok f_dim m_pos fa fa_ok 0 1 n s D Hn Ok HG) as (s1 & E1 & _ & F & _).
    rewrite E in E1. injection E1 as <-.
    destruct Ok as (I1 & I2 & I3 & I4 & I5 & I6 & I7 & I8 & I9).
    unfold om_step in E.
    destruct (comprehension (speed_up P D (om_leaders s)) _) as [ps1|]; [|discriminate].
    destruct (comprehension (moved_particle P) ps1) as [ps2|]; [|discriminate].
    destruct (om_evaluate_spec P fa fa_ok ps2 (om_evals s)) as (c & more & Ee & _). rewrite Ee in E.
    destruct (update_leaders (om_size s) 0 1 (map (evaluated P) ps2) (om_leaders s, om_archive s)) as [[L A]|] eqn:Eu; [|discriminate].
    destruct (comprehension update_best _) as [ps4|] eqn:Eb; [|discriminate].
    destruct (crowding L) as [L'|] eqn:Ec; [|discriminate]. injection E as <-. cbn [om_leaders om_archive om_particles] in *.
    assert (FD : Forall (fun p => length (objectives p) = p_m P) (map (evaluated P) ps2)).
    { apply Forall_forall. intros p Hp. apply in_map_iff in Hp. destruct Hp as (q & <- & _). apply f_dim. }
    assert (DL : all_dim (p_m P) l_objs (om_leaders s)) by (eapply sound_dim; eauto).
    assert (DA : all_dim (p_m P) l_objs (om_archive s)) by (eapply sound_dim; eauto).
    destruct (update_leaders_ok (p_m P) (om_size s) 0 1 m_pos ltac:(lia) (map (evaluated P) ps2) (om_leaders s) (om_archive s) FD DL DA ltac:(lia)) as (L1 & A1 & Eu1 & HL & _).
    rewrite Eu in Eu1. injection Eu1 as <- <-.
    destruct (update_leaders_covers (p_m P) (om_size s) m_pos ltac:(lia) _ _ _ _ _ FD DL DA ltac:(lia) C1 Eu) as (R1 & R2 & R3).
    split; cbn [om_leaders om_archive om_particles].
    - exact (crowding_covered _ _ _ _ m_pos HL Ec R1).
    - intros p' v Hp' Hv. destruct (Forall2_In_r _ _ _ _ F Hp') as (p & Hp & Hvis & _). rewrite Hvis in Hv. destruct Hv as [<-|Hv].
      + apply comprehension_spec in Eb. destruct (Forall2_In_r _ _ _ _ Eb Hp') as (q & Hq & Eq).
        assert (V : value p' = value q). { unfold update_best in Eq. destruct (bests q) as [|[? ?] ?]; [discriminate|]. destruct (omopso_dominates _ _ _ _) as [[]|]; [| |discriminate]; injection Eq as <-; reflexivity. }
        specialize (R3 q Hq). rewrite V. apply in_map_iff in Hq. destruct Hq as (r & <- & _). exact R3.
      + apply R2. exact (C2 p v Hp Hv).
  Qed.

  Lemma om_steps_covers n Ds : 1 <= n -> forall s s', om_ok P fa n s -> om_goods P fa 0 1 Ds s -> om_covers s ->
    om_steps P 0 1 fa Ds s = Some s' -> om_covers s'.
  Proof.
    intros Hn. induction Ds as [|D Ds IH]; intros s s' Ok HG HC E; cbn [om_steps] in E.
    - injection E as <-. exact HC.
    - destruct HG as (G1 & G2). destruct (om_step_ok P box_ok trim_ok f_dim m_pos fa fa_ok 0 1 n s D Hn Ok G1) as (s1 & E1 & Ok1 & _).
      rewrite E1 in E. apply (IH s1 s' Ok1); [now apply G2 | exact (om_step_covers n s D s1 Hn Ok G1 HC E1) | exact E].
  Qed.
End Run.
