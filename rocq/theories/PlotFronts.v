(** Proofs about the pictures of fronts. *)
From Coq Require Import Reals Qreals Lqa.
From Verif Require Import StatModel StatSpec StatProofs StatBoot StatRank StatTable SortProofs Base.
From Verif Require Import DomModel DomProofs Spec.
From Verif Require Import PlotModel PlotSpec PlotProofs.
Local Open Scope Q_scope.
Local Open Scope list_scope.

(** ** Splitting a front at its gaps *)
Section Split.
  Variable eps : Q.
  Notation point := (Q * Q)%type.

  (** A gap within a group comes right after its first point. *)
  Definition within (g : list point) : Prop :=
    forall p a b q, g = p ++ a :: b :: q -> eps < fst b - fst a -> p = [].
  Definition broken (g g' : list point) : Prop :=
    exists h a b t, h <> [] /\ g = h ++ [a] /\ g' = b :: t /\ eps < fst b - fst a.
  Definition good (L : list (list point)) : Prop :=
    Forall (fun g => g <> [] /\ within g) L /\ forall g g', next L g g' -> broken g g'.

  Lemma split_snoc {A} (l : list A) x p a b q : l ++ [x] = p ++ a :: b :: q ->
    (exists q', l = p ++ a :: b :: q') \/ (l = p ++ [a] /\ x = b /\ q = []).
  Proof.
    intros E. destruct q as [|z q _] using rev_ind.
    - right. change (a :: [b]) with ([a] ++ [b]) in E. rewrite app_assoc in E. apply app_inj_tail in E.
      destruct E as [-> ->]. auto.
    - left. exists q.
      replace (p ++ a :: b :: q ++ [z]) with ((p ++ a :: b :: q) ++ [z]) in E by (rewrite <- app_assoc; reflexivity).
      apply app_inj_tail in E. apply E.
  Qed.
  Lemma next_snoc {A} (l : list A) x a b : next (l ++ [x]) a b <-> next l a b \/ exists h, l = h ++ [a] /\ x = b.
  Proof.
    unfold next. split.
    - intros (p & q & E). apply split_snoc in E. destruct E as [(q' & E)|(E & X & _)]; [left; eauto|right; eauto].
    - intros [(p & q & ->)|(h & -> & ->)].
      + exists p, (q ++ [x]). rewrite <- app_assoc. reflexivity.
      + exists h, []. rewrite <- app_assoc. reflexivity.
  Qed.
  Lemma next_one {A} (x a b : A) : ~ next [x] a b.
  Proof. intros (p & q & E). destruct p as [|? [|]]; discriminate. Qed.

  Lemma good_one x : good [[x]].
  Proof.
    split.
    - constructor; [|constructor]. split; [discriminate|]. intros p a b q H. exfalso. apply (next_one x a b). exists p, q. exact H.
    - intros g g' H. destruct (next_one _ _ _ H).
  Qed.

  (** The state of the loop: nothing yet, or good groups and the first coordinate of the last point. *)
  Definition state (groups : list (list point)) (group : list point) (prev : Q) : Prop :=
    (groups = [] /\ group = []) \/ (good (groups ++ [group]) /\ exists h a, group = h ++ [a] /\ fst a = prev).

  Lemma split_step groups group prev x y : state groups group prev ->
    if (Qlt_bool eps (x - prev) && (1 <? length group)%nat)%bool
    then state (groups ++ [group]) [(x, y)] x
    else state groups (group ++ [(x, y)]) x.
  Proof.
    intros [[-> ->]|[[F B] (h & a & E & P)]].
    - cbn [length Nat.ltb Nat.leb]. rewrite Bool.andb_false_r. right. split; [apply good_one|]. exists [], (x, y). auto.
    - destruct (Qlt_bool eps (x - prev) && (1 <? length group)%nat)%bool eqn:C; right.
      + apply Bool.andb_true_iff in C. destruct C as [C1 C2]. apply Qlt_bool_iff in C1. apply Nat.ltb_lt in C2.
        split; [split|].
        * apply Forall_app. split; [exact F|]. constructor; [|constructor]. split; [discriminate|].
          intros pp u v q H. exfalso. apply (next_one (x, y) u v). exists pp, q. exact H.
        * intros g g' H. apply next_snoc in H. destruct H as [H|(hh & H & <-)]; [apply B, H|].
          apply app_inj_tail in H. destruct H as [_ <-]. exists h, a, (x, y), [].
          split; [|split; [exact E|split; [reflexivity|cbn [fst]; rewrite P; exact C1]]].
          intros ->. rewrite E in C2. cbn in C2. lia.
        * exists [], (x, y). auto.
      + apply Forall_app in F. destruct F as [F1 F2]. inversion F2 as [|? ? [Ng W] _]; subst.
        split; [split|].
        * apply Forall_app. split; [exact F1|]. constructor; [|constructor]. split.
          { intros X. symmetry in X. apply app_cons_not_nil in X. exact X. }
          intros pp u v q H G. apply split_snoc in H. destruct H as [(q' & H)|(H & <- & _)]; [apply (W _ _ _ _ H G)|].
          apply app_inj_tail in H. destruct H as [<- <-]. cbn [fst] in G.
          apply Bool.andb_false_iff in C. destruct C as [C|C].
          -- apply Bool.not_true_iff_false in C. rewrite Qlt_bool_iff in C. contradiction.
          -- apply Nat.ltb_ge in C. rewrite app_length in C. cbn in C. destruct h as [|z h]; [reflexivity|cbn in C; lia].
        * intros g g' H. apply next_snoc in H. destruct H as [H|(hh & -> & <-)].
          -- apply B. apply next_snoc. left. exact H.
          -- assert (broken g (h ++ [a])) as (h1 & a1 & b1 & t1 & X1 & X2 & X3 & X4).
             { apply B. apply next_snoc. right. exists hh. auto. }
             exists h1, a1, b1, (t1 ++ [(x, y)]). split; [exact X1|]. split; [exact X2|]. split; [|exact X4].
             rewrite X3. reflexivity.
        * exists (h ++ [a]), (x, y). auto.
  Qed.

  Lemma split_loop_ok : forall front prev groups group gs g,
    split_loop eps prev groups group front = (gs, g) -> state groups group prev ->
    (exists p, state gs g p) /\ concat gs ++ g = concat groups ++ group ++ front
    /\ (groups = [] /\ group = [] -> front <> [] -> g <> []).
  Proof.
    induction front as [|[x y] front IH]; intros prev groups group gs g E S; cbn [split_loop] in E.
    - injection E as <- <-. split; [eauto|]. split; [rewrite app_nil_r; reflexivity|congruence].
    - pose proof (split_step groups group prev x y S) as S'.
      destruct (Qlt_bool eps (x - prev) && (1 <? length group)%nat)%bool eqn:C.
      + destruct (IH _ _ _ _ _ E S') as (X & Y & _). split; [exact X|]. split.
        * rewrite Y, concat_app. cbn [concat app]. rewrite app_nil_r, <- app_assoc. reflexivity.
        * intros [_ ->] _. cbn in C. rewrite Bool.andb_false_r in C. discriminate.
      + destruct (IH _ _ _ _ _ E S') as (X & Y & _). split; [exact X|]. split.
        * rewrite Y, <- app_assoc. reflexivity.
        * intros [-> ->] _ ->. destruct X as (p & [[-> _]|[_ (h & a & H & _)]]); [|destruct h; discriminate].
          cbn in Y. discriminate.
  Qed.

  Lemma same_points_x : forall l l', same_points l l' = true ->
    forall a, In a l -> exists b, In b l' /\ fst a == fst b.
  Proof.
    induction l as [|[x y] l IH]; intros [|[x' y'] l'] E; cbn [same_points] in E; try discriminate.
    - intros a [].
    - apply Bool.andb_true_iff in E. destruct E as [E1 E2]. apply Bool.andb_true_iff in E1. destruct E1 as [E1 _].
      apply Qeq_bool_iff in E1. intros a [<-|Ha].
      + exists (x', y'). split; [left; reflexivity|exact E1].
      + destruct (IH l' E2 a Ha) as (b & B & X). exists b. split; [right; exact B|exact X].
  Qed.

  Lemma split_front_some front gs : 0 <= eps -> StronglySorted (fun a b => fst a <= fst b) front ->
    split_front front eps = Some gs -> concat gs = front /\ good gs /\ (2 <= length gs)%nat.
  Proof.
    intros He S E. unfold split_front in E. destruct (split_loop eps 0 [] [] front) as [groups group] eqn:L.
    destruct (split_loop_ok _ _ _ _ _ _ L) as ((p & X) & Y & _); [left; auto|]. cbn [concat app] in Y.
    destruct (rev groups) as [|lst r] eqn:R; [discriminate|].
    assert (G : groups = rev r ++ [lst]).
    { rewrite <- (rev_involutive groups), R. reflexivity. }
    destruct X as [[X _]|[X _]]; [subst groups; destruct (rev r); discriminate|].
    assert (N : same_points lst group = false).
    { apply Bool.not_true_iff_false. intros Sm. destruct X as [_ B].
      destruct (B lst group) as (h & a & b & t & _ & X1 & X2 & X3).
      { exists (rev r), []. rewrite G, <- app_assoc. reflexivity. }
      destruct (same_points_x _ _ Sm a) as (c & Hc & Ec).
      { rewrite X1. apply in_or_app. right. left. reflexivity. }
      assert (fst b <= fst c).
      { destruct Hc as [<-|Hc] || (rewrite X2 in Hc; destruct Hc as [<-|Hc]); [lra|].
        rewrite <- Y in S. rewrite G, concat_app in S. rewrite X2 in S.
        clear - S Hc. induction (concat (rev r) ++ concat [lst]) as [|z l IH]; cbn [app] in S.
        - inversion S as [|? ? _ F]; subst. rewrite Forall_forall in F. apply F. exact Hc.
        - inversion S; subst. auto. }
      lra. }
    rewrite N in E. injection E as <-. split; [|split; [exact X|]].
    - rewrite concat_app. cbn [concat]. rewrite app_nil_r. exact Y.
    - rewrite app_length, G, app_length. cbn. lia.
  Qed.

  Lemma split_front_none front :
    split_front front eps = None <->
    forall p a b q, front = p ++ a :: b :: q -> eps < fst b - fst a -> p = [].
  Proof.
    unfold split_front. destruct (split_loop eps 0 [] [] front) as [groups group] eqn:L.
    destruct (split_loop_ok _ _ _ _ _ _ L) as ((p0 & X) & Y & _); [left; auto|]. cbn [concat app] in Y.
    destruct (rev groups) as [|lst r] eqn:R.
    - assert (groups = []) as -> by (rewrite <- (rev_involutive groups), R; reflexivity).
      cbn [concat app] in Y. subst group. split; [|reflexivity]. intros _ p a b q E G.
      destruct X as [[_ ->]|[[F _] _]]; [destruct p; discriminate|].
      inversion F as [|? ? [_ W] _]; subst. apply (W p a b q eq_refl G).
    - split; [discriminate|]. intros H. exfalso.
      assert (G : groups = rev r ++ [lst]) by (rewrite <- (rev_involutive groups), R; reflexivity).
      destruct X as [[X _]|[[_ B] _]]; [subst groups; destruct (rev r); discriminate|].
      destruct (B lst group) as (h & a & b & t & Nh & X1 & X2 & X3).
      { exists (rev r), []. rewrite G, <- app_assoc. reflexivity. }
      apply Nh. specialize (H (concat (rev r) ++ h) a b t). destruct h as [|z h]; [congruence|].
      assert (concat (rev r) ++ z :: h = []) as E; [|destruct (concat (rev r)); discriminate].
      apply H; [|exact X3]. rewrite <- Y, G, concat_app. cbn [concat]. rewrite X1, X2, app_nil_r, <- !app_assoc. reflexivity.
  Qed.
End Split.

Section Fronts.
  Variables (boot_size : nat) (randint : string * string * string * Q -> nat -> nat -> nat -> nat).
  Hypothesis boot_pos : (1 <= boot_size)%nat.
  Hypothesis draws : forall c, fair (randint c).
  Variable A : Type.
  Variable pareto_front : string -> list (list Q).
  Variable runs : string -> string -> Q -> list (list A).

  Definition pairs (front : list (list Q)) : list (Q * Q) := map (fun v => (hd 0 v, nth 1 v 0)) front.
  Lemma as_pairs_ok front : (forall v, In v front -> length v = 2%nat) ->
    as_pairs front = Some (pairs front) /\ map (fun p : Q * Q => [fst p; snd p]) (pairs front) = front.
  Proof.
    induction front as [|v front IH]; intros H; [split; reflexivity|].
    pose proof (H v (or_introl eq_refl)) as L. destruct v as [|x [|y [|]]]; try discriminate.
    destruct IH as [E1 E2]; [intros v Hv; apply H; right; exact Hv|].
    cbn [as_pairs]. rewrite E1. split; [reflexivity|]. unfold pairs in *. cbn [map hd nth fst snd]. rewrite E2. reflexivity.
  Qed.
  Lemma pairs_sorted front : StronglySorted (fun a b => hd 0 a <= hd 0 b) front ->
    StronglySorted (fun a b : Q * Q => fst a <= fst b) (pairs front).
  Proof.
    induction 1 as [|v front S IH F]; constructor; [exact IH|]. apply Forall_forall. intros p H.
    apply in_map_iff in H. destruct H as (w & <- & Hw). rewrite Forall_forall in F. apply (F w Hw).
  Qed.

  Lemma plain_drawn p front : plain_front p front -> plot_problem_front (String.eqb p "ZDT3") front = Some [front].
  Proof.
    intros (N & NE & H). unfold plot_problem_front. destruct front as [|v front]; [congruence|].
    destruct (String.eqb_spec p "ZDT3"); [congruence|].
    replace (forallb _ _) with true; [reflexivity|]. symmetry. apply forallb_forall. intros w Hw.
    apply Nat.leb_le. apply H, Hw.
  Qed.
  Lemma concat_map_map {B C} (f : B -> C) l : concat (map (map f) l) = map f (concat l).
  Proof. induction l as [|x l IH]; cbn; [reflexivity|]. rewrite map_app, IH. reflexivity. Qed.
  Lemma cut_drawn p front : cut_front p front ->
    exists gs, split_front (pairs front) (5 # 100) = Some gs
      /\ plot_problem_front (String.eqb p "ZDT3") front = Some (map (map (fun p => [fst p; snd p])) gs)
      /\ concat (map (map (fun p : Q * Q => [fst p; snd p])) gs) = front.
  Proof.
    intros (-> & H & S & a & b & c & d & E & N & G). destruct (as_pairs_ok front H) as [E1 E2].
    destruct (split_front (pairs front) (5 # 100)) as [gs|] eqn:X.
    - exists gs. split; [reflexivity|]. split.
      + unfold plot_problem_front. rewrite E1. destruct front; [destruct a; discriminate|]. rewrite X. reflexivity.
      + destruct (split_front_some (5 # 100) (pairs front) gs) as (Ec & _); [lra|apply pairs_sorted, S|exact X|].
        rewrite concat_map_map, Ec. exact E2.
    - exfalso. pose proof (proj1 (split_front_none (5 # 100) (pairs front)) X) as Y.
      apply N. assert (pairs a = []) as Z; [|destruct a; [reflexivity|discriminate]].
      apply (Y (pairs a) (hd 0 b, nth 1 b 0) (hd 0 c, nth 1 c 0) (pairs d)); [|exact G].
      rewrite E. unfold pairs. rewrite map_app. reflexivity.
  Qed.
  Lemma front_drawn p front : plain_front p front \/ cut_front p front ->
    exists lines, plot_problem_front (String.eqb p "ZDT3") front = Some lines /\ concat lines = front.
  Proof.
    intros [H|H].
    - exists [front]. split; [apply plain_drawn, H|]. cbn. apply app_nil_r.
    - destruct (cut_drawn p front H) as (gs & _ & X & Y). eauto.
  Qed.

  (** The stored results that would be drawn have a first run with a population. *)
  Definition populated (p : string) (algos : list (string * list result)) : Prop :=
    forall a rs r, In (a, rs) algos -> accepted rs r -> front_name a ->
      exists pop more, runs p a (r_budget r) = pop :: more /\ pop <> [].

  Lemma chosen_ok p : forall algos, readable algos -> populated p algos ->
    exists pops, chosen boot_size randint A runs p algos = Some pops
      /\ NoDup (map fst pops)
      /\ (forall a pop, In (a, pop) pops <-> front_of runs p algos a pop)
      /\ forall a pop, In (a, pop) pops -> pop <> [].
  Proof.
    induction algos as [|[a rs] algos IH]; intros [N F] P; cbn [chosen].
    - exists []. split; [reflexivity|]. split; [constructor|]. split; [|intros a pop []].
      intros a pop. split; [intros []|intros (_ & rs & r & m & [] & _)].
    - cbn [map fst] in N. inversion N as [|? ? N1 N2]; subst.
      destruct IH as (pops & E & ND & I & NE).
      { split; [exact N2|]. intros a' rs' H. apply (F a' rs'). right. exact H. }
      { intros a' rs' r H. apply (P a' rs' r). right. exact H. }
      rewrite E. destruct (F a rs (or_introl eq_refl)) as [Nrs Fr].
      assert (Tl : forall a' pop, front_of runs p algos a' pop -> front_of runs p ((a, rs) :: algos) a' pop).
      { intros a' pop (X & rs' & r & m & Y & Z). split; [exact X|]. exists rs', r, m. split; [right; exact Y|exact Z]. }
      destruct (find_ok boot_size _ randint boot_pos draws
                  (fun r => (p, a, "cost"%string, r_budget r)) rs Nrs Fr)
        as [[Ef H]|(r & costs & rest & Ac & Er & Ef)]; rewrite Ef.
      + exists pops. split; [reflexivity|]. split; [exact ND|]. split; [|exact NE]. intros a' pop. rewrite I.
        split; [apply Tl|]. intros (X & rs' & r & m & [Y|Y] & Z).
        * injection Y as <- <-. exfalso. destruct Z as [(b & x & y & L & Ex & Af & _) _].
          apply (H b r L); [|exact Af]. rewrite Ex. apply in_or_app. right. left. reflexivity.
        * split; [exact X|]. exists rs', r, m. auto.
      + cbn [r_budget]. destruct (mem a PlotModel.algos) eqn:M.
        * apply front_names in M. destruct (P a rs r (or_introl eq_refl) Ac M) as (pop & more & Er' & Np). rewrite Er'.
          exists ((a, pop) :: pops). split; [reflexivity|]. split; [|split].
          -- cbn [map fst]. constructor; [|exact ND]. intros H. apply in_map_iff in H. destruct H as ([a' pop'] & <- & H).
             apply I in H. destruct H as (_ & rs' & r' & m & H & _). apply N1. apply in_map_iff. exists (a', rs'). auto.
          -- intros a' pop'. cbn [In]. rewrite I. split.
             ++ intros [H|H]; [|apply Tl, H]. injection H as <- <-. split; [exact M|]. exists rs, r, more.
                split; [left; reflexivity|auto].
             ++ intros (X & rs' & r' & m & [Y|Y] & Z & W).
                ** injection Y as <- <-. rewrite (accepted_unique _ _ _ Z Ac) in W. left. congruence.
                ** right. split; [exact X|]. exists rs', r', m. auto.
          -- intros a' pop' [H|H]; [injection H as <- <-; exact Np|apply (NE _ _ H)].
        * exists pops. split; [reflexivity|]. split; [exact ND|]. split; [|exact NE]. intros a' pop. rewrite I.
          split; [apply Tl|]. intros (X & rs' & r' & m & [Y|Y] & Z).
          -- injection Y as <- <-. exfalso. apply front_names in X. congruence.
          -- split; [exact X|]. exists rs', r', m. auto.
  Qed.

  Lemma draw_all_ok (hl : A -> bool) : forall pops, (forall a pop, In (a, pop) pops -> pop <> []) ->
    draw_all A hl pops = Some (map (fun e => (fst e, filter (fun x => negb (hl x)) (snd e), filter hl (snd e))) pops).
  Proof.
    induction pops as [|[a pop] pops IH]; intros H; cbn [draw_all map fst snd]; [reflexivity|].
    rewrite IH; [|intros a' pop' X; apply (H a' pop'); right; exact X].
    destruct pop as [|x pop]; [exfalso; apply (H a []); [left|]; reflexivity|]. reflexivity.
  Qed.

  Lemma best_fronts_ok stored : tidy stored ->
    (forall p algos, In (p, algos) stored -> plain_front p (pareto_front p) \/ cut_front p (pareto_front p)) ->
    (forall p algos, In (p, algos) stored -> populated p algos) ->
    exists figs, best_fronts boot_size randint A pareto_front runs stored = Some figs
      /\ Forall2 (fun st f => f_problem f = fst st /\ concat (f_front f) = pareto_front (fst st)
                   /\ NoDup (map (fun e => fst (fst e)) (f_drawn f))
                   /\ forall a points marked, In (a, points, marked) (f_drawn f) <->
                        marked = [] /\ front_of runs (fst st) (snd st) a points) stored figs.
  Proof.
    intros T. pose proof (fun p al => tidy_readable stored p al T) as R. clear T.
    induction stored as [|[p algos] stored IH]; intros H P; cbn [best_fronts].
    - exists []. split; [reflexivity|constructor].
    - destruct IH as (figs & E & F).
      { intros p' al X. apply (R p'). right. exact X. }
      { intros p' al X. apply (H p' al). right. exact X. }
      { intros p' al X. apply (P p' al). right. exact X. }
      destruct (chosen_ok p algos (R p algos (or_introl eq_refl)) (P p algos (or_introl eq_refl))) as (pops & E1 & ND & I & NE).
      destruct (front_drawn p (pareto_front p) (H p algos (or_introl eq_refl))) as (lines & E2 & E3).
      rewrite E1, E2, (draw_all_ok _ _ NE), E. eexists. split; [reflexivity|]. constructor; [|exact F].
      cbn [f_problem f_front f_drawn fst snd]. split; [reflexivity|]. split; [exact E3|]. split.
      + rewrite map_map. cbn [fst]. exact ND.
      + assert (K : forall l : list A, filter (fun x => negb false) l = l).
        { induction l as [|x l IHl]; [reflexivity|]. cbn in *. rewrite IHl. reflexivity. }
        assert (Z : forall l : list A, filter (fun _ => false) l = []).
        { induction l as [|x l IHl]; [reflexivity|]. exact IHl. }
        intros a points marked. rewrite in_map_iff. split.
        * intros ([a' pop] & X & Y). cbn [fst snd] in X. rewrite K, Z in X. injection X as <- <- <-.
          split; [reflexivity|]. apply I, Y.
        * intros [-> X]. apply I in X. exists (a, points). cbn [fst snd]. rewrite K, Z. auto.
  Qed.
End Fronts.

Lemma selects_filter'' {A} (P : A -> Prop) f (l : list A) : (forall x, In x l -> (f x = true <-> P x)) -> selects P l (filter f l).
Proof.
  induction l as [|x l IH]; intros H; cbn [filter]; [constructor|].
  assert (S : selects P l (filter f l)) by (apply IH; intros y Hy; apply H; right; exact Hy).
  pose proof (H x (or_introl eq_refl)) as Hx. destruct (f x); [apply sel_keep|apply sel_drop]; [apply Hx; reflexivity|exact S| |exact S].
  intros X. apply Hx in X. discriminate.
Qed.

(** The other runs make no difference. *)
Section Other.
  Variables (boot_size : nat) (randint : string * string * string * Q -> nat -> nat -> nat -> nat).
  Lemma chosen_first A (runs runs' : string -> string -> Q -> list (list A)) p :
    (forall p a b, hd_error (runs p a b) = hd_error (runs' p a b)) -> forall algos,
    chosen boot_size randint A runs p algos = chosen boot_size randint A runs' p algos.
  Proof.
    intros H. induction algos as [|[a rs] algos IH]; cbn [chosen]; [reflexivity|].
    destruct (find_acceptable _ _ _ _ _) as [[r|]|]; [|exact IH|reflexivity].
    destruct (mem a PlotModel.algos); [|exact IH]. specialize (H p a (r_budget r)). rewrite IH.
    destruct (runs p a (r_budget r)), (runs' p a (r_budget r)); try discriminate; [reflexivity|].
    injection H as ->. reflexivity.
  Qed.
  Lemma best_fronts_first A pareto_front (runs runs' : string -> string -> Q -> list (list A)) :
    (forall p a b, hd_error (runs p a b) = hd_error (runs' p a b)) -> forall stored,
    best_fronts boot_size randint A pareto_front runs stored = best_fronts boot_size randint A pareto_front runs' stored.
  Proof.
    intros H. induction stored as [|[p algos] stored IH]; cbn [best_fronts]; [reflexivity|].
    rewrite (chosen_first A runs runs' p H), IH. reflexivity.
  Qed.
End Other.

Section Colour.
  Variables (boot_size : nat) (randint : string * string * string * Q -> nat -> nat -> nat -> nat).
  Hypothesis boot_pos : (1 <= boot_size)%nat.
  Hypothesis draws : forall c, fair (randint c).
  Variable pareto_front : string -> list (list Q).
  Variable runs : string -> string -> Q -> list (list vec).

  (** No point drawn for the problem dominates [v]. *)
  Definition beaten_by_none (p : string) (algos : list (string * list result)) (v : vec) : Prop :=
    forall a pop w, front_of runs p algos a pop -> In w pop -> ~ pareto_dom w v.

  Lemma color_ok stored : tidy stored ->
    (forall p algos, In (p, algos) stored -> plain_front p (pareto_front p) \/ cut_front p (pareto_front p)) ->
    (forall p algos, In (p, algos) stored -> populated vec runs p algos) ->
    (forall p algos, In (p, algos) stored -> exists d, forall a pop v, front_of runs p algos a pop -> In v pop -> length v = d) ->
    exists figs, color_nondom boot_size randint pareto_front runs stored = Some figs
      /\ exists shown, selects (fun st => exists a pop, front_of runs (fst st) (snd st) a pop) stored shown
        /\ Forall2 (fun st f => f_problem f = fst st /\ concat (f_front f) = pareto_front (fst st)
             /\ NoDup (map (fun e => fst (fst e)) (f_drawn f))
             /\ (forall a pop, front_of runs (fst st) (snd st) a pop -> In a (map (fun e => fst (fst e)) (f_drawn f)))
             /\ forall a points marked, In (a, points, marked) (f_drawn f) -> exists pop,
                  front_of runs (fst st) (snd st) a pop
                  /\ selects (beaten_by_none (fst st) (snd st)) pop marked
                  /\ selects (fun v => ~ beaten_by_none (fst st) (snd st) v) pop points) shown figs.
  Proof.
    intros T. pose proof (fun p al => tidy_readable stored p al T) as R. clear T.
    induction stored as [|[p algos] stored IH]; intros H P D; cbn [color_nondom].
    - exists []. split; [reflexivity|]. exists []. split; constructor.
    - destruct IH as (figs & E & shown & Sh & F).
      { intros p' al X. apply (R p'). right. exact X. }
      { intros p' al X. apply (H p' al). right. exact X. }
      { intros p' al X. apply (P p' al). right. exact X. }
      { intros p' al X. apply (D p' al). right. exact X. }
      destruct (chosen_ok boot_size randint boot_pos draws vec runs p algos (R p algos (or_introl eq_refl)) (P p algos (or_introl eq_refl)))
        as (pops & E1 & ND & I & NE).
      destruct (front_drawn p (pareto_front p) (H p algos (or_introl eq_refl))) as (lines & E2 & E3).
      destruct (D p algos (or_introl eq_refl)) as (d & Dd).
      rewrite E1. cbv beta iota zeta. rewrite E2, E.
      assert (Dl : all_dim d (fun v : vec => v) (flat_map snd pops)).
      { intros v Hv. apply in_flat_map in Hv. destruct Hv as ([a pop] & X & Y). cbn in Y. apply (Dd a pop v); [apply I, X|exact Y]. }
      set (all := flat_map snd pops) in *.
      set (hl := fun v : vec => existsb (vec_eqb v) (filter_not_dominated (fun v => v) all)).
      assert (Hl : forall v, In v all -> (hl v = true <-> beaten_by_none p algos v)).
      { intros v Hv. unfold hl. rewrite existsb_exists.
        destruct (filter_not_dominated_members vec (fun v => v) d all Dl) as [M _].
        split.
        - intros (w & Hw & Ew). apply vec_eqb_spec in Ew. subst w. apply M in Hw. destruct Hw as [_ Hw].
          intros a pop w X Y. apply Hw. unfold all. apply in_flat_map. exists (a, pop). split; [apply I, X|exact Y].
        - intros B. exists v. split; [|apply vec_eqb_spec; reflexivity]. apply M. split; [exact Hv|].
          intros w Hw. apply in_flat_map in Hw. destruct Hw as ([a pop] & X & Y). apply (B a pop w); [apply I, X|exact Y]. }
      pose proof (draw_all_ok vec hl pops NE) as E4.
      destruct pops as [|e0 pops'].
      + exists figs. split; [reflexivity|]. exists shown. split; [|exact F]. apply sel_drop; [|exact Sh].
        cbn [fst snd]. intros (a & pop & X). apply I in X. destruct X.
      + match goal with |- context [draw_all vec ?f ?l] => change (draw_all vec f l) with (draw_all vec hl (e0 :: pops')) end.
        rewrite E4. clear E4. eexists. split; [reflexivity|]. exists ((p, algos) :: shown). split.
        * apply sel_keep; [|exact Sh]. cbn [fst snd]. destruct e0 as [a0 pop0]. exists a0, pop0. apply I. left. reflexivity.
        * constructor; [|exact F]. cbn [f_problem f_front f_drawn fst snd]. split; [reflexivity|]. split; [exact E3|].
          rewrite map_map. split; [exact ND|]. split.
          -- intros a pop X. apply I in X. apply in_map_iff. exists (a, pop). auto.
          -- intros a points marked X. apply in_map_iff in X. destruct X as ([a' pop] & X & Y). cbn [fst snd] in X.
             injection X as <- <- <-. exists pop. split; [apply I, Y|].
             assert (Ia : forall v, In v pop -> In v all).
             { intros v Hv. unfold all. apply in_flat_map. exists (a', pop). auto. }
             split; apply selects_filter''; intros v Hv.
             ++ apply Hl, Ia, Hv.
             ++ rewrite <- (Hl v (Ia v Hv)). fold hl. change (existsb (vec_eqb v) _) with (hl v). destruct (hl v); cbn; split; congruence.
  Qed.
End Colour.
