(** Proofs for C154: the statistics report. *)
From Coq Require Import Qabs Lqa Reals.
From Verif Require Import StatModel StatSpec StatBandSpec StatProofs StatBoot StatRank StatProps PlotProofs PlotSummary Base StrepModel StrepSpec.
From Coq Require Import List.
Local Open Scope nat_scope.

(** ** Suspicious and moved *)

Lemma filter_perm_length {A} (f : A -> bool) l l' : Permutation l l' -> length (filter f l) = length (filter f l').
Proof.
  induction 1 as [|x l l' P IH|x y l|l1 l2 l3 P1 IH1 P2 IH2]; cbn [filter]; auto.
  - destruct (f x); cbn [length]; congruence.
  - destruct (f x), (f y); reflexivity.
  - congruence.
Qed.

Lemma far_dec data x : {far data x} + {~ far data x}.
Proof.
  unfold far. destruct (Rlt_dec (Q2R x) (real_mean data - 3 * real_stdev data)); [left; left; assumption|].
  destruct (Rlt_dec (real_mean data + 3 * real_stdev data) (Q2R x)); [left; right; assumption | right; tauto].
Qed.

Lemma exactly_unique data k k' : exactly k (far data) data -> exactly k' (far data) data -> k = k'.
Proof.
  assert (G : forall k, exactly k (far data) data -> k = length (filter (fun x => if far_dec data x then true else false) data)).
  { intros j (yes & no & P & L & Fy & Fn). rewrite <- (filter_perm_length _ _ _ P), filter_app, app_length.
    rewrite filter_all, filter_none; [cbn; lia | |].
    - intros x Hx. rewrite Forall_forall in Fn. destruct (far_dec data x); [exfalso; apply (Fn x Hx); assumption | reflexivity].
    - intros x Hx. rewrite Forall_forall in Fy. destruct (far_dec data x) as [|C]; [reflexivity | exfalso; apply C, Fy, Hx]. }
  intros H H'. rewrite (G k H), (G k' H'). reflexivity.
Qed.

Lemma spread_iff randint data n a : yield_analysis randint data n = Some a -> (spread_out data <-> a_good a = false).
Proof.
  intros E. destruct (C106_flag _ _ _ _ E) as (k & K & G). rewrite G. split.
  - intros (j & J & L). rewrite (exactly_unique data k j K J). exact L.
  - intros L. exists k. auto.
Qed.

Lemma moved_iff randint data n a : yield_analysis randint data n = Some a -> (moved a data <-> changed_a_lot a = true).
Proof.
  intros E. destruct (C72_counts _ _ _ _ E) as (mc & inl & m & _ & _ & _ & S & _ & Ni & En & Mm & _).
  destruct (analysis_inv _ _ _ _ E) as (N & _ & _ & _ & _ & _ & _ & _ & _ & _ & _ & _ & M & _).
  unfold changed_a_lot. rewrite En.
  assert (X : forall mean mi, (mean == a_mean a)%Q -> (mi == m)%Q ->
    ((mean == 0 \/ Qabs mean < 10 * Qabs (mi - mean))%Q <->
     (if Qeq_bool (a_mean a) 0 then true else Qlt_bool 10 (Qabs (100 * (m - a_mean a) / a_mean a))) = true)).
  { intros mean mi E1 E2. rewrite E1, E2. destruct (Qeq_bool (a_mean a) 0) eqn:Z.
    - apply Qeq_bool_iff in Z. split; [reflexivity | intros _; left; exact Z].
    - apply Qeq_bool_neq in Z. rewrite Qlt_bool_iff.
      assert (A : (Qabs (100 * (m - a_mean a) / a_mean a) == 100 * Qabs (m - a_mean a) / Qabs (a_mean a))%Q).
      { unfold Qdiv. rewrite !Qabs_Qmult, Qabs_Qinv. reflexivity. }
      rewrite A. assert (P : (0 < Qabs (a_mean a))%Q).
      { apply Qnot_le_lt. intros C. apply Z. revert C.
        apply (Qabs_case (a_mean a) (fun y => (y <= 0)%Q -> (a_mean a == 0)%Q)); intros; lra. }
      split.
      + intros [C|C]; [contradiction|]. apply Qlt_shift_div_l; [exact P|]. lra.
      + intros C. right. apply (Qmult_lt_compat_r _ _ (Qabs (a_mean a)) P) in C.
        unfold Qdiv in C. rewrite <- Qmult_assoc, (Qmult_comm (/ _)), Qmult_inv_r in C by lra. lra. }
  split.
  - intros (inl' & mi & mean & S' & Mi & Mean & C). pose proof (selects_det _ _ _ _ S S') as <-.
    apply (X mean mi); [apply (mean_unique data); assumption | apply (mean_unique inl); assumption | exact C].
  - intros C. exists inl, m, (a_mean a). split; [exact S|]. split; [exact Mm|]. split; [exact M|].
    apply (X (a_mean a) m); [reflexivity | reflexivity | exact C].
Qed.

(** ** The text *)

Lemma marked_app t t' : marked (t ++ t') = (marked t ++ marked t')%list.
Proof. apply flat_map_app. Qed.
Lemma marked_listed l : marked (map Listed l) = [].
Proof. induction l; [reflexivity | assumption]. Qed.

Section Report.
  Variables (boot_size : nat) (draws : subject -> nat -> nat -> nat -> nat).
  Hypothesis boot_pos : 1 <= boot_size.
  Hypothesis draws_fair : forall s, fair (draws s).

  Lemma lengths_some l : Forall (fun n => n <> None) l -> exists ns, lengths l = Some ns.
  Proof.
    induction 1 as [|n l N F IH]; cbn; [eauto|]. destruct n as [n|]; [|congruence]. destruct IH as (ns & ->). eauto.
  Qed.
  Lemma lengths_none l : In None l -> lengths l = None.
  Proof.
    induction l as [|[n|] l IH]; cbn; intros H; [destruct H | | reflexivity].
    destruct H as [H|H]; [discriminate|]. rewrite (IH H). reflexivity.
  Qed.

  Lemma force_some p a b items : (forall m data, In (m, data) items -> data <> []) ->
    exists l, force_all boot_size draws p a b items = Some l /\
      Forall2 (fun it x => fst x = it /\ yield_analysis (draws (p, a, b, fst it)) (snd it) boot_size = Some (snd x)) items l.
  Proof.
    induction items as [|[m data] items IH]; intros H; cbn [force_all]; [exists []; split; [reflexivity | constructor]|].
    destruct IH as (l & -> & F); [intros; apply (H m0); right; assumption|].
    destruct (analysis_some (draws (p, a, b, m)) data boot_size) as (an & E); [apply draws_fair | apply (H m); left; reflexivity | exact boot_pos|].
    rewrite E. exists ((m, data, an) :: l). split; [reflexivity|]. constructor; [split; [reflexivity | exact E] | exact F].
  Qed.

  Lemma rows_ok p a b items l :
    Forall2 (fun it x => fst x = it /\ yield_analysis (draws (p, a, b, fst it)) (snd it) boot_size = Some (snd x)) items l ->
    forall first fh, exists ps, Forall2 (fun it q => paragraph boot_size draws (p, a, b, fst it) (snd it) q) items ps /\
      let body := ((if (first && negb fh)%bool then match l with [] => [] | _ => [Dashes] end else []) ++ concat ps)%list in
      rows p a b l first fh = (body, marked body, match l with [] => fh | _ => false end).
  Proof.
    induction 1 as [|[m data] [md an] items l [E A] F IH]; intros first fh; cbn [rows].
    - exists []. split; [constructor|]. cbn. destruct (first && negb fh)%bool; reflexivity.
    - cbn [fst snd] in E, A. subst md. destruct (IH false false) as (ps & Fp & Er). cbn [andb app] in Er. rewrite Er.
      pose proof (spread_iff _ _ _ _ A) as Sp. pose proof (moved_iff _ _ _ _ A) as Mv.
      assert (L : (match l with [] => false | _ => false end) = false) by (destruct l; reflexivity). rewrite L.
      unfold suspicious at 1. destruct (a_good an) eqn:G.
      + exists ([Row (p, a, b, m) (length data) an] :: ps). split.
        * constructor; [|exact Fp]. apply pg_quiet; [exact A|]. intros C. apply Sp in C. discriminate.
        * cbn [concat]. destruct (first && negb fh)%bool; reflexivity.
      + set (r := {| r_out_of := _; r_total := _; r_lines := _ |}).
        assert (Es : suspicious an data = Some r) by (unfold suspicious; rewrite G; reflexivity).
        destruct (changed_a_lot an) eqn:C.
        * exists ([Row (p, a, b, m) (length data) an; Details (p, a, b, m) r; Untrusted (p, a, b, m)] :: ps). split.
          -- constructor; [|exact Fp]. apply pg_untrusted; [exact A | apply Sp; reflexivity | apply Mv; reflexivity | exact Es].
          -- cbn [concat]. destruct (first && negb fh)%bool; reflexivity.
        * exists ([Row (p, a, b, m) (length data) an; Details (p, a, b, m) r; Probably_fine (p, a, b, m)] :: ps). split.
          -- constructor; [|exact Fp]. apply pg_fine; [exact A | apply Sp; reflexivity | | exact Es].
             intros X. apply Mv in X. discriminate.
          -- cbn [concat]. destruct (first && negb fh)%bool; reflexivity.
  Qed.

  Lemma result_ok p a e (fh : bool) : readable e -> exists l t,
    lengths (e_populations e) <> None /\ force_all boot_size draws p a (e_budget e) (e_analysis e) = Some l /\
    result_text boot_size draws p a e t /\
    let body := if fh then t else Dashes :: t in rows p a (e_budget e) l true fh = (body, marked body, false).
  Proof.
    intros (P & N & D). destruct (lengths_some _ P) as (ns & El). destruct (force_some p a (e_budget e) (e_analysis e) D) as (l & Ef & F).
    destruct (rows_ok p a (e_budget e) _ _ F true fh) as (ps & Fp & Er). exists l, (concat ps). split; [congruence|]. split; [exact Ef|].
    split; [exists ps; auto|]. assert (Nl : l <> []) by (intros ->; inversion F as [H1 H2|]; congruence).
    cbv zeta. rewrite Er. destruct l; [congruence|]. destruct fh; reflexivity.
  Qed.

  (** The entries before the first unreadable one are printed. *)
  Lemma budgets_ok p a es tail : (forall e, In e es -> readable e) -> forall fh,
    exists ts, Forall2 (result_text boot_size draws p a) es ts /\
      let fh' := match es with [] => fh | _ => false end in
      let body := if fh then join Dashes ts else flat_map (fun t => Dashes :: t) ts in
      budgets boot_size draws p a (es ++ tail) fh =
      let '(printed, bad, how) := budgets boot_size draws p a tail fh' in ((body ++ printed)%list, (marked body ++ bad)%list, how).
  Proof.
    induction es as [|e es IH]; intros R fh.
    - exists []. split; [constructor|]. cbn [app join flat_map]. destruct (budgets boot_size draws p a tail fh) as [[pr bd] how].
      destruct fh; reflexivity.
    - destruct (result_ok p a e fh (R e (or_introl eq_refl))) as (l & t & El & Ef & Rt & Er).
      destruct (IH (fun x Hx => R x (or_intror Hx)) false) as (ts & F & Eb). exists (t :: ts). split; [constructor; assumption|].
      cbn [app budgets]. destruct (lengths (e_populations e)) as [ns|]; [|congruence]. rewrite Ef. cbv zeta in Er. rewrite Er.
      cbv zeta in Eb. rewrite Eb. replace (match es with [] => false | _ => false end) with false by (destruct es; reflexivity).
      destruct (budgets boot_size draws p a tail false) as [[pr bd] how]. cbv zeta.
      destruct fh; cbn [join flat_map]; rewrite !marked_app, !app_assoc; reflexivity.
  Qed.

  Lemma algorithm_ok p a es rest : (forall e, In e es -> readable e) ->
    exists t, algorithm_text boot_size draws p a es t /\
      algorithms boot_size draws p ((a, es) :: rest) =
      let '(printed, bad, how) := algorithms boot_size draws p rest in ((t ++ printed)%list, (marked t ++ bad)%list, how).
  Proof.
    intros R. destruct (budgets_ok p a es [] R true) as (ts & F & E). exists (Heading :: join Dashes ts). split; [exists ts; auto|].
    cbn [algorithms]. rewrite app_nil_r in E. rewrite E. cbn [budgets]. rewrite !app_nil_r.
    destruct (algorithms boot_size draws p rest) as [[pr bd] how]. reflexivity.
  Qed.

  Lemma algorithms_ok p algos tail : (forall a es e, In (a, es) algos -> In e es -> readable e) ->
    exists t, problem_text boot_size draws p algos t /\
      algorithms boot_size draws p (algos ++ tail) =
      let '(printed, bad, how) := algorithms boot_size draws p tail in ((t ++ printed)%list, (marked t ++ bad)%list, how).
  Proof.
    induction algos as [|[a es] algos IH]; intros R.
    - exists []. split; [exists []; split; [constructor | reflexivity]|]. cbn [app].
      destruct (algorithms boot_size draws p tail) as [[pr bd] how]. reflexivity.
    - destruct IH as (t & (ts & F & ->) & E); [intros a' es' e H1 H2; apply (R a' es' e); [right; exact H1 | exact H2]|].
      destruct (algorithm_ok p a es (algos ++ tail)) as (t1 & A1 & E1); [intros e He; apply (R a es e); [left; reflexivity | exact He]|].
      exists (t1 ++ concat ts)%list. split; [exists (t1 :: ts); split; [constructor; [exact A1 | exact F] | reflexivity]|].
      cbn [app]. rewrite E1, E. destruct (algorithms boot_size draws p tail) as [[pr bd] how].
      rewrite marked_app, !app_assoc. reflexivity.
  Qed.

  Lemma problems_text_ok stored tail : all_readable stored ->
    exists t, archive_text boot_size draws stored t /\
      problems boot_size draws (stored ++ tail) =
      let '(printed, bad, how) := problems boot_size draws tail in ((t ++ printed)%list, (marked t ++ bad)%list, how).
  Proof.
    induction stored as [|[p algos] stored IH]; intros R.
    - exists []. split; [exists []; split; [constructor | reflexivity]|]. cbn [app].
      destruct (problems boot_size draws tail) as [[pr bd] how]. reflexivity.
    - destruct IH as (t & (ts & F & ->) & E); [intros q al a es e H0 H1 H2; apply (R q al a es e); [right; exact H0 | exact H1 | exact H2]|].
      destruct (algorithms_ok p algos []) as (t1 & A1 & E1); [intros a es e H1 H2; apply (R p algos a es e); [left; reflexivity | exact H1 | exact H2]|].
      rewrite app_nil_r in E1. cbn [algorithms] in E1. rewrite !app_nil_r in E1.
      exists (t1 ++ concat ts)%list. split; [exists (t1 :: ts); split; [constructor; [exact A1 | exact F] | reflexivity]|].
      cbn [app problems]. rewrite E1, E. destruct (problems boot_size draws tail) as [[pr bd] how].
      rewrite marked_app, !app_assoc. reflexivity.
  Qed.

  Lemma report_ok stored : all_readable stored -> exists t, archive_text boot_size draws stored t /\
    statistics boot_size draws stored = ((t ++ map Listed (marked t))%list, Finished).
  Proof.
    intros R. destruct (problems_text_ok stored [] R) as (t & A & E). exists t. split; [exact A|].
    rewrite app_nil_r in E. unfold statistics. rewrite E. cbn [problems]. rewrite !app_nil_r. reflexivity.
  Qed.

  Lemma report_raised before p algos a es e es' algos' after :
    all_readable before -> (forall a' es0 e0, In (a', es0) algos -> In e0 es0 -> readable e0) ->
    (forall e0, In e0 es -> readable e0) -> In None (e_populations e) ->
    exists t, archive_text boot_size draws (before ++ [(p, algos ++ [(a, es)])]) t /\
      statistics boot_size draws (before ++ (p, algos ++ (a, es ++ e :: es') :: algos') :: after) = (t, Raised).
  Proof.
    intros R1 R2 R3 N.
    destruct (problems_text_ok before ((p, algos ++ (a, es ++ e :: es') :: algos') :: after) R1) as (t1 & (ts1 & F1 & ->) & E1).
    destruct (algorithms_ok p algos ((a, es ++ e :: es') :: algos') R2) as (t2 & (ts2 & F2 & ->) & E2).
    destruct (budgets_ok p a es (e :: es') R3 true) as (ts3 & F3 & E3).
    exists (concat ts1 ++ (concat ts2 ++ Heading :: join Dashes ts3))%list. split.
    - exists (ts1 ++ [concat ts2 ++ Heading :: join Dashes ts3])%list. split.
      + apply Forall2_app; [exact F1|]. constructor; [|constructor]. exists (ts2 ++ [Heading :: join Dashes ts3])%list. split.
        * apply Forall2_app; [exact F2|]. constructor; [|constructor]. exists ts3. auto.
        * rewrite concat_app. cbn [concat]. rewrite app_nil_r. reflexivity.
      + rewrite concat_app. cbn [concat]. rewrite app_nil_r. reflexivity.
    - unfold statistics. rewrite E1. cbn [problems]. rewrite E2. cbn [algorithms]. rewrite E3. cbn [budgets].
      rewrite (lengths_none _ N). rewrite app_nil_r. reflexivity.
  Qed.
End Report.
