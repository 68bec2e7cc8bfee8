(** Proofs about the summary pictures. *)
From Coq Require Import Reals Qreals Lqa Lra.
From Verif Require Import StatModel StatSpec StatProofs StatBoot StatRank StatTable SortProofs Base.
From Verif Require Import PlotModel PlotSpec PlotProofs.
Local Open Scope list_scope.

(** ** Scores are unique *)

Lemma mean_unique data s s' : data <> [] -> is_mean data s -> is_mean data s' -> (s == s')%Q.
Proof.
  unfold is_mean. intros N H H'. assert (~ (size data == 0)%Q) as S.
  { unfold size. destruct data; [congruence|]. cbn [length]. rewrite Nat2Z.inj_succ.
    intros E. change 0%Q with (inject_Z 0) in E. rewrite inject_Z_injective in E. lia. }
  apply (Qmult_inj_r s s' (size data) S). rewrite H, H'. reflexivity.
Qed.

Lemma score_unique metric algos a s s' : readable algos ->
  score_in metric algos a s -> score_in metric algos a s' -> (s == s')%Q.
Proof.
  intros [N F] (rs & r & d & H1 & H2 & H3 & H4) (rs' & r' & d' & H1' & H2' & H3' & H4').
  apply (lookup_In _ string_iff) in H1 as L; [|exact N]. apply (lookup_In _ string_iff) in H1' as L'; [|exact N].
  assert (rs' = rs) by congruence. subst rs'. rewrite (accepted_unique _ _ _ H2' H2) in *.
  destruct (F a rs H1) as [_ Fr]. destruct (Fr r (accepted_in _ _ H2)) as (_ & ND & NE).
  apply (lookup_In _ string_iff) in H3 as M; [|exact ND]. apply (lookup_In _ string_iff) in H3' as M'; [|exact ND].
  assert (d' = d) by congruence. subst d'. apply (mean_unique d); auto. apply (NE metric d H3).
Qed.
Lemma magnitude_eq s s' : (s == s')%Q -> magnitude s = magnitude s'.
Proof. intros E. unfold magnitude. rewrite (Qeq_eqR _ _ E). reflexivity. Qed.
Lemma magnitude_nonneg s : (0 <= magnitude s)%R.
Proof.
  unfold magnitude. rewrite <- ln_1. pose proof (Rabs_pos (Q2R s)).
  destruct (Req_dec (Rabs (Q2R s)) 0) as [->|N]; [rewrite Rplus_0_r; lra|].
  apply Rlt_le, ln_increasing; lra.
Qed.
Lemma top_unique metric algos t t' : readable algos -> top_score metric algos t -> top_score metric algos t' -> t = t'.
Proof.
  intros _ [(a & s & H & ->) M] [(a' & s' & H' & ->) M']. apply Rle_antisym; eauto.
Qed.
Lemma value_unique metric algos a v v' : readable algos ->
  summary_value metric algos a v -> summary_value metric algos a v' -> v = v'.
Proof.
  intros R (s & H & P & T) (s' & H' & P' & T').
  pose proof (magnitude_eq _ _ (score_unique _ _ _ _ _ R H H')) as E.
  destruct (string_dec metric "pdi") as [->|Np].
  - rewrite (P eq_refl), (P' eq_refl). exact E.
  - destruct (T Np) as (t & U & ->), (T' Np) as (t' & U' & ->).
    rewrite E, (top_unique _ _ _ _ R U U'). reflexivity.
Qed.

Lemma has_metric_dec r m : {d | has_metric r m d} + {forall d, ~ has_metric r m d}.
Proof.
  unfold has_metric. destruct (in_dec string_dec m (map fst (r_analysis r))) as [H|H].
  - left. induction (r_analysis r) as [|[m' d] l IH]; [destruct H|].
    destruct (string_dec m' m) as [->|N]; [exists d; left; reflexivity|].
    destruct IH as (d' & X); [destruct H; [contradiction|assumption]|]. exists d'. right. exact X.
  - right. intros d X. apply H. apply in_map_iff. exists (m, d). auto.
Qed.
Lemma mean_exists data : data <> [] -> exists s, is_mean data s.
Proof.
  intros N. exists (total data / size data)%Q. unfold is_mean. field.
  unfold size. destruct data; [congruence|]. cbn [length]. rewrite Nat2Z.inj_succ.
  intros E. change 0%Q with (inject_Z 0) in E. rewrite inject_Z_injective in E. lia.
Qed.

(** The scores on one problem as a finite list. *)
Lemma scores_list m : forall algos, readable algos -> exists l,
  (forall a s, In (a, s) l -> score_in m algos a s)
  /\ forall a s, score_in m algos a s -> exists s', In (a, s') l /\ (s == s')%Q.
Proof.
  intros algos R.
  induction algos as [|[a rs] algos IH].
  - exists []. split; [intros a s []|intros a s (rs & r & d & [] & _)].
  - assert (R' : readable algos).
    { destruct R as [N F]. inversion N; subst. split; [assumption|]. intros a' rs' X. apply (F a' rs'). right. exact X. }
    destruct (IH R') as (l & L1 & L2). pose proof R as [N F]. destruct (F a rs (or_introl eq_refl)) as [Nr Fr].
    destruct (find_ok 1 (string * string * string * Q) (fun _ _ _ _ => 0%nat) (le_n 1) (fun _ _ _ n => Nat.le_0_l n)
                (fun r => ("", a, "cost", r_budget r)%string) rs Nr Fr) as [[_ H]|(r & costs & rest & A & Er & _)].
    + exists l. split.
      * intros a' s X. destruct (L1 _ _ X) as (rs' & r & d & Y & Z). exists rs', r, d. split; [right; exact Y|exact Z].
      * intros a' s (rs' & r & d & [Y|Y] & Z); [|apply L2; exists rs', r, d; auto].
        injection Y as <- <-. exfalso. destruct Z as ((b & x & y & Lb & Ex & Af & _) & _).
        apply (H b r Lb); [|exact Af]. rewrite Ex. apply in_or_app. right. left. reflexivity.
    + destruct (has_metric_dec r m) as [(d & Hd)|Hn].
      * destruct (Fr r (accepted_in _ _ A)) as (_ & ND & NE). destruct (mean_exists d (NE m d Hd)) as (q & Hq).
        exists ((a, q) :: l). split.
        -- intros a' s [X|X].
           ++ injection X as <- <-. exists rs, r, d. split; [left; reflexivity|auto].
           ++ destruct (L1 _ _ X) as (rs' & r' & d' & Y & Z). exists rs', r', d'. split; [right; exact Y|exact Z].
        -- intros a' s X. destruct X as (rs' & r' & d' & [Y|Y] & Z).
           ++ injection Y as <- <-. exists q. split; [left; reflexivity|].
              apply (score_unique m ((a, rs) :: algos) a s q R); [exists rs, r', d'; split; [left; reflexivity|exact Z]|].
              exists rs, r, d. split; [left; reflexivity|auto].
           ++ destruct (L2 a' s) as (s' & X & E); [exists rs', r', d'; auto|]. exists s'. split; [right; exact X|exact E].
      * exists l. split.
        -- intros a' s X. destruct (L1 _ _ X) as (rs' & r' & d & Y & Z). exists rs', r', d. split; [right; exact Y|exact Z].
        -- intros a' s (rs' & r' & d & [Y|Y] & Z); [|apply L2; exists rs', r', d; auto].
           injection Y as <- <-. exfalso. destruct Z as (A' & Z & _). rewrite (accepted_unique _ _ _ A' A) in Z. apply (Hn d Z).
Qed.

Lemma has_score_iff m algos : readable algos -> (has_score m algos <-> exists a s, score_in m algos a s).
Proof.
  intros R. split.
  - intros (a & rs & r & d & X & Y & Z). destruct R as [_ F]. destruct (F a rs X) as [_ Fr].
    destruct (Fr r (accepted_in _ _ Y)) as (_ & _ & NE). destruct (mean_exists d (NE m d Z)) as (s & S).
    exists a, s, rs, r, d. auto.
  - intros (a & s & rs & r & d & X & Y & Z & _). exists a, rs, r, d. auto.
Qed.
Lemma score_dec m algos : readable algos -> has_score m algos \/ ~ has_score m algos.
Proof.
  intros R. destruct (scores_list m algos R) as ([|[a s] l] & L1 & L2).
  - right. rewrite (has_score_iff m algos R). intros (a & s & X). destruct (L2 a s X) as (s' & [] & _).
  - left. apply (has_score_iff m algos R). exists a, s. apply L1. left. reflexivity.
Qed.
Lemma top_exists m algos : readable algos -> has_score m algos -> exists t, top_score m algos t.
Proof.
  intros R H. destruct (scores_list m algos R) as (l & L1 & L2).
  assert (exists t, (exists a s, In (a, s) l /\ t = magnitude s) /\ forall a s, In (a, s) l -> (magnitude s <= t)%R) as (t & (a & s & X & E) & M).
  { apply (has_score_iff m algos R) in H. destruct H as (a & s & H). destruct (L2 a s H) as (s' & X & _). clear - X.
    revert a s' X. induction l as [|[a0 s0] l IH]; intros a s X; [destruct X|]. destruct l as [|[a1 s1] l].
    - exists (magnitude s0). split; [exists a0, s0; split; [left; reflexivity|reflexivity]|].
      intros a' s'' [E|[]]. injection E as <- <-. lra.
    - destruct (IH a1 s1 (or_introl eq_refl)) as (t & (a2 & s2 & Y & E) & M).
      destruct (Rle_lt_dec (magnitude s0) t) as [C|C].
      + exists t. split; [exists a2, s2; split; [right; exact Y|exact E]|]. intros a' s' [Z|Z]; [injection Z as <- <-; exact C|eauto].
      + exists (magnitude s0). split; [exists a0, s0; split; [left; reflexivity|reflexivity]|].
        intros a' s' [Z|Z]; [injection Z as <- <-; lra|]. specialize (M _ _ Z). lra. }
  exists t. split; [exists a, s; auto|]. intros a' s' Y. destruct (L2 _ _ Y) as (s'' & Z & E'). rewrite (magnitude_eq _ _ E'). eauto.
Qed.
Lemma value_exists m algos a : readable algos ->
  (exists rs r d, In (a, rs) algos /\ accepted rs r /\ has_metric r m d) -> exists v, summary_value m algos a v.
Proof.
  intros R (rs & r & d & X & Y & Z). pose proof R as [_ F]. destruct (F a rs X) as [_ Fr].
  destruct (Fr r (accepted_in _ _ Y)) as (_ & _ & NE). destruct (mean_exists d (NE m d Z)) as (s & S).
  destruct (string_dec m "pdi") as [E|N].
  - exists (magnitude s), s. split; [exists rs, r, d; auto|]. split; [auto|congruence].
  - destruct (top_exists m algos R) as (t & T); [exists a, rs, r, d; auto|].
    exists (magnitude s / (t + 1 / 10000))%R, s. split; [exists rs, r, d; auto|]. split; [congruence|]. eauto.
Qed.

Section Summary.
  Variables (boot_size : nat) (randint : string * string * string * Q -> nat -> nat -> nat -> nat).
  Hypothesis boot_pos : (1 <= boot_size)%nat.
  Hypothesis draws : forall c, fair (randint c).

  Notation scores := (list (key3 * R)).
  Notation look := (lookup key3_eqb).
  Definition lsc (p : string) (e : string * string * list Q) : R :=
    log_score (sc boot_size randint (p, fst (fst e), snd (fst e), 0%Q) (snd e)).
  Definition put (p : string) (s : scores) (e : string * string * list Q) : scores :=
    update key3_eqb s (snd (fst e), fst (fst e), p) 0%R (fun _ => lsc p e).

  Lemma log_score_eq q : log_score q = magnitude q.
  Proof. unfold log_score, magnitude. f_equal. lra. Qed.

  Lemma score_events_eq p : forall evs s ps, (forall a m d, In (a, m, d) evs -> d <> []) ->
    score_events boot_size randint p evs s ps
    = Some (fold_left (put p) evs s, fold_left (add String.eqb (fun e => snd (fst e)) (lsc p)) evs ps).
  Proof.
    induction evs as [|[[a m] d] evs IH]; intros s ps N; cbn [score_events fold_left]; [reflexivity|].
    destruct (sc_ok boot_size randint boot_pos draws (p, a, m, 0%Q) d) as [E _].
    { apply (N a m d). left. reflexivity. }
    rewrite E. rewrite IH; [reflexivity|]. intros a' m' d' H. apply (N a' m' d'). right. exact H.
  Qed.

  Lemma put_all p : forall evs s, NoDup (map fst evs) -> (forall m a, look s (m, a, p) = None) ->
    forall k v, look (fold_left (put p) evs s) k = Some v <->
      look s k = Some v \/ exists a m d, In (a, m, d) evs /\ k = (m, a, p) /\ v = lsc p (a, m, d).
  Proof.
    intros evs. induction evs as [|e evs IH] using rev_ind; intros s N H k v.
    - cbn. split; [auto|]. intros [E|(a & m & d & [] & _)]. exact E.
    - rewrite fold_left_app. cbn [fold_left]. rewrite map_app in N. cbn [map] in N.
      pose proof (NoDup_remove_1 _ _ _ N) as N1. pose proof (NoDup_remove_2 _ _ _ N) as N2. rewrite app_nil_r in N1, N2.
      unfold put at 1. rewrite (lookup_update _ key3_iff). destruct e as [[a m] d]. cbn [fst snd] in *.
      destruct (eqb_spec key3_eqb key3_iff (m, a, p) k) as [<-|Nk].
      + split.
        * intros E. injection E as <-. right. exists a, m, d. split; [apply in_or_app; right; left; reflexivity|auto].
        * intros [E|(a' & m' & d' & I & E & ->)]; [rewrite H in E; discriminate|].
          injection E as <- <-. apply in_app_iff in I. destruct I as [I|[I|[]]].
          -- exfalso. apply N2. apply in_map_iff. exists (a, m, d'). auto.
          -- injection I as <-. reflexivity.
      + rewrite IH; [|exact N1|exact H]. split.
        * intros [E|(a' & m' & d' & I & E & ->)]; [auto|]. right. exists a', m', d'. split; [apply in_or_app; auto|auto].
        * intros [E|(a' & m' & d' & I & E & ->)]; [auto|]. right. exists a', m', d'. split; [|auto].
          apply in_app_iff in I. destruct I as [I|[I|[]]]; [exact I|]. injection I as <- <- <-. congruence.
  Qed.

  Lemma update_same (d : scores) k f v : look d k = Some v ->
    map fst (update key3_eqb d k 0%R f) = map fst d.
  Proof. intros E. rewrite (update_keys _ key3_iff), E. reflexivity. Qed.

  Lemma normalise_algos_look m p top : forall names s, NoDup names -> forall k,
    look (normalise_algos m p top names s) k
    = if (String.eqb (fst (fst k)) m && String.eqb (snd k) p && mem (snd (fst k)) names)%bool
      then option_map (fun x => (x / top)%R) (look s k) else look s k.
  Proof.
    unfold normalise_algos. induction names as [|a names IH]; intros s N k; cbn [fold_left].
    - cbn [mem existsb]. rewrite Bool.andb_false_r. reflexivity.
    - inversion N as [|? ? N1 N2]; subst. rewrite IH; [|exact N2]. cbn [mem existsb].
      change (existsb (String.eqb (snd (fst k))) names) with (mem (snd (fst k)) names).
      assert (E : look (match look s (m, a, p) with
                        | Some _ => update key3_eqb s (m, a, p) 0%R (fun x => (x / top)%R)
                        | None => s end) k
                  = if (String.eqb (fst (fst k)) m && String.eqb (snd k) p && String.eqb (snd (fst k)) a)%bool
                    then option_map (fun x => (x / top)%R) (look s k) else look s k).
      { destruct k as [[m' a'] p']. cbn [fst snd].
        destruct (String.eqb_spec m' m) as [->|N3]; cbn [andb].
        - destruct (String.eqb_spec p' p) as [->|N4]; cbn [andb].
          + destruct (String.eqb_spec a' a) as [->|N5].
            * destruct (look s (m, a, p)) as [v|] eqn:L; [|rewrite L; reflexivity].
              rewrite (lookup_update _ key3_iff), (eqb_refl _ key3_iff), L. reflexivity.
            * destruct (look s (m, a, p)); [|reflexivity]. rewrite (lookup_update _ key3_iff).
              destruct (eqb_spec key3_eqb key3_iff (m, a, p) (m, a', p)); [congruence|reflexivity].
          + destruct (look s (m, a, p)); [|reflexivity]. rewrite (lookup_update _ key3_iff).
            destruct (eqb_spec key3_eqb key3_iff (m, a, p) (m, a', p')); [congruence|reflexivity].
        - destruct (look s (m, a, p)); [|reflexivity]. rewrite (lookup_update _ key3_iff).
          destruct (eqb_spec key3_eqb key3_iff (m, a, p) (m', a', p')); [congruence|reflexivity]. }
      rewrite E. destruct (String.eqb_spec (snd (fst k)) a) as [Ea|Na].
      + rewrite Ea. assert (mem a names = false) as ->.
        { apply Bool.not_true_iff_false. rewrite mem_iff. exact N1. }
        rewrite Bool.andb_false_r, Bool.orb_false_r. reflexivity.
      + rewrite Bool.andb_false_r. reflexivity.
  Qed.

  Lemma normalise_ok p names ps : NoDup names -> forall metrics s, NoDup metrics ->
    (forall m, In m metrics -> m <> "pdi"%string -> exists l, lookup String.eqb ps m = Some l /\ l <> []) ->
    exists s', normalise p names ps metrics s = Some s' /\
      forall k, look s' k
        = if (String.eqb (snd k) p && mem (snd (fst k)) names && mem (fst (fst k)) metrics
              && negb (String.eqb (fst (fst k)) "pdi"))%bool
          then option_map (fun x => (x / (match max_of (match lookup String.eqb ps (fst (fst k)) with
                                                        | Some l => l | None => [] end) with
                                          | Some t => t | None => 0%R end + 1 / 10000))%R) (look s k)
          else look s k.
  Proof.
    intros Nn. induction metrics as [|m metrics IH]; intros s N H; cbn [normalise].
    - exists s. split; [reflexivity|]. intros k. cbn [mem existsb]. rewrite Bool.andb_false_r. reflexivity.
    - inversion N as [|? ? N1 N2]; subst.
      assert (Nm : mem m metrics = false) by (apply Bool.not_true_iff_false; rewrite mem_iff; exact N1).
      destruct (String.eqb_spec m "pdi") as [->|Np].
      + destruct (IH s N2) as (s' & E & L).
        { intros m Hm. apply H. right. exact Hm. }
        exists s'. split; [exact E|]. intros k. rewrite L. cbn [mem existsb].
        change (existsb (String.eqb (fst (fst k))) metrics) with (mem (fst (fst k)) metrics).
        destruct (String.eqb_spec (fst (fst k)) "pdi") as [->|Nk]; cbn [negb orb].
        * rewrite !Bool.andb_false_r. reflexivity.
        * reflexivity.
      + destruct (H m (or_introl eq_refl) Np) as (l & El & Nl). rewrite El.
        destruct (max_of l) as [top|] eqn:Em; [|destruct l; [congruence|discriminate]].
        destruct (IH (normalise_algos m p (top + 1 / 10000)%R names s) N2) as (s' & E & L).
        { intros m' Hm. apply H. right. exact Hm. }
        exists s'. split; [exact E|]. intros k. rewrite L, normalise_algos_look by exact Nn.
        cbn [mem existsb]. change (existsb (String.eqb (fst (fst k))) metrics) with (mem (fst (fst k)) metrics).
        destruct (String.eqb_spec (fst (fst k)) m) as [Ek|Nk].
        * rewrite Ek, Nm, El, Em. cbn [orb andb]. rewrite Bool.andb_false_r. cbn [andb].
          destruct (String.eqb_spec m "pdi"); [congruence|]. cbn [negb]. rewrite !Bool.andb_true_r. reflexivity.
        * cbn [orb andb]. reflexivity.
  Qed.
  Lemma normalise_fails p names ps : forall metrics s m, In m metrics -> m <> "pdi"%string ->
    (forall l, lookup String.eqb ps m = Some l -> l = []) -> normalise p names ps metrics s = None.
  Proof.
    induction metrics as [|m0 metrics IH]; intros s m I Np H; cbn [normalise]; [destruct I|destruct I as [->|Hm]].
    - destruct (String.eqb_spec m "pdi"); [congruence|].
      destruct (lookup String.eqb ps m) as [l|] eqn:E; [|reflexivity]. rewrite (H l eq_refl). reflexivity.
    - destruct (String.eqb m0 "pdi"); [apply (IH s m Hm Np H)|].
      destruct (max_of _); [apply (IH _ m Hm Np H)|reflexivity].
  Qed.

  Lemma metrics_in (s : scores) m : In m (metrics_of s) <-> exists a p v, look s (m, a, p) = Some v.
  Proof.
    unfold metrics_of. rewrite nodup_In, in_map_iff. split.
    - intros ([[[m' a] p] v] & <- & H). cbn [fst]. exists a, p.
      destruct (look s (m', a, p)) as [v'|] eqn:E; [eauto|]. exfalso.
      apply (lookup_none _ key3_iff) in E. apply E. apply in_map_iff. exists ((m', a, p), v). auto.
    - intros (a & p & v & H). assert (In (m, a, p) (map fst s)) as I.
      { destruct (in_dec (fun x y : key3 => ltac:(repeat decide equality)) (m, a, p) (map fst s)) as [I|I]; [exact I|].
        apply (lookup_none _ key3_iff) in I. congruence. }
      apply in_map_iff in I. destruct I as ([k v'] & E & I). cbn in E. subst k. exists ((m, a, p), v'). auto.
  Qed.

  Lemma max_of_ok l : l <> [] -> exists t, max_of l = Some t /\ In t l /\ forall x, In x l -> (x <= t)%R.
  Proof.
    destruct l as [|s l]; [congruence|]. intros _. cbn [max_of].
    assert (forall l s, exists t, fold_left Rmax l s = t /\ (t = s \/ In t l) /\ (s <= t)%R
              /\ forall x, In x l -> (x <= t)%R) as H.
    { clear. induction l as [|x l IH]; intros s; cbn [fold_left].
      - exists s. split; [reflexivity|]. split; [auto|]. split; [lra|intros x []].
      - destruct (IH (Rmax s x)) as (t & E & I & L & M).
        pose proof (Rmax_l s x). pose proof (Rmax_r s x).
        exists t. split; [exact E|]. split; [|split; [lra|]].
        + destruct I as [->|I]; [|right; right; exact I]. unfold Rmax. destruct (Rle_dec s x); [right; left; reflexivity|auto].
        + intros y [<-|Hy]; [lra|auto]. }
    destruct (H l s) as (t & E & I & L & M). exists t. split; [congruence|]. split.
    - destruct I as [->|I]; [left; reflexivity|right; exact I].
    - intros x [<-|Hx]; auto.
  Qed.

  (** ** One problem *)

  Lemma one_problem p algos s : readable algos -> (forall m a, look s (m, a, p) = None) ->
    (forall m, In m (metrics_of s) -> drawn_metric m) ->
    (forall m, m <> "pdi"%string -> In m (metrics_of s) -> has_score m algos) ->
    exists evs s1 ps s2, visited boot_size randint p algos = Some evs
      /\ score_events boot_size randint p evs s [] = Some (s1, ps)
      /\ normalise p (map fst algos) ps (metrics_of s1) s1 = Some s2
      /\ forall m a p' v, look s2 (m, a, p') = Some v <->
           look s (m, a, p') = Some v \/ (p' = p /\ drawn_metric m /\ summary_value m algos a v).
  Proof.
    intros R H D C. destruct (visited_ok boot_size randint boot_pos draws p algos R) as (evs & Ev & I & ND & NE).
    rewrite Ev. exists evs. rewrite score_events_eq by exact NE.
    set (s1 := fold_left (put p) evs s). set (ps := fold_left (add String.eqb (fun e => snd (fst e)) (lsc p)) evs []).
    assert (L1 : forall k v, look s1 k = Some v <->
      look s k = Some v \/ exists a m d, In (a, m, d) evs /\ k = (m, a, p) /\ v = lsc p (a, m, d)).
    { apply put_all; assumption. }
    assert (Lp : forall m l, lookup String.eqb ps m = Some l <->
       map (lsc p) (filter (fun e => String.eqb (snd (fst e)) m) evs) = l /\ l <> []).
    { intros m l. apply (group_new String.eqb string_iff (fun e => snd (fst e)) (lsc p) evs m l). }
    assert (Sc : forall a m d, In (a, m, d) evs -> exists q, score_in m algos a q /\ lsc p (a, m, d) = magnitude q).
    { intros a m d X. pose proof (proj1 (I a m d) X) as (Dm & rs & r & Y1 & Y2 & Y3).
      destruct (sc_ok boot_size randint boot_pos draws (p, a, m, 0%Q) d (NE _ _ _ X)) as [_ M].
      eexists. split; [exists rs, r, d; split; [exact Y1|split; [exact Y2|split; [exact Y3|exact M]]]|].
      unfold lsc. apply log_score_eq. }
    assert (Sc' : forall a m q, drawn_metric m -> score_in m algos a q ->
              exists d, In (a, m, d) evs /\ lsc p (a, m, d) = magnitude q).
    { intros a m q Dm X. pose proof X as (rs & r & d & Y1 & Y2 & Y3 & Y4). exists d.
      assert (In (a, m, d) evs) as Z by (apply I; split; [exact Dm|eauto]). split; [exact Z|].
      destruct (Sc _ _ _ Z) as (q' & X' & ->). apply magnitude_eq. apply (score_unique _ _ _ _ _ R X' X). }
    assert (Tp : forall m, drawn_metric m -> has_score m algos ->
              exists l t, lookup String.eqb ps m = Some l /\ max_of l = Some t /\ top_score m algos t).
    { intros m Dm (a & rs & r & d & Y1 & Y2 & Y3).
      assert (In (a, m, d) evs) as Z by (apply I; split; [exact Dm|eauto]).
      set (l := map (lsc p) (filter (fun e => String.eqb (snd (fst e)) m) evs)).
      assert (Il : forall x, In x l <-> exists a d, In (a, m, d) evs /\ x = lsc p (a, m, d)).
      { intros x. unfold l. rewrite in_map_iff. split.
        - intros ([[a' m'] d'] & <- & X). apply filter_In in X. destruct X as [X E]. cbn in E.
          apply String.eqb_eq in E. subst m'. eauto.
        - intros (a' & d' & X & ->). exists (a', m, d'). split; [reflexivity|]. apply filter_In.
          split; [exact X|apply String.eqb_refl]. }
      assert (l <> []) as Nl.
      { intros E. assert (In (lsc p (a, m, d)) l) as X by (apply Il; eauto). rewrite E in X. destruct X. }
      destruct (max_of_ok l Nl) as (t & Et & It & Mt). exists l, t.
      split; [apply Lp; auto|]. split; [exact Et|]. split.
      - apply Il in It. destruct It as (a' & d' & X & ->). destruct (Sc _ _ _ X) as (q & Y & ->). eauto.
      - intros a' q X. destruct (Sc' _ _ _ Dm X) as (d' & Z' & <-). apply Mt. apply Il. eauto. }
    assert (Mt : forall m, In m (metrics_of s1) -> m <> "pdi"%string -> drawn_metric m /\ has_score m algos).
    { intros m X Np. apply metrics_in in X. destruct X as (a & p' & v & X). apply L1 in X.
      destruct X as [X|(a' & m' & d & X & E & _)].
      - assert (In m (metrics_of s)) as Y by (apply metrics_in; eauto). split; [apply D, Y|apply (C m Np Y)].
      - injection E as -> -> ->. apply I in X. destruct X as (Dm & rs & r & X). split; [exact Dm|].
        exists a', rs, r, d. exact X. }
    destruct (normalise_ok p (map fst algos) ps (proj1 R) (metrics_of s1) s1 (NoDup_nodup _ _)) as (s2 & E2 & L2).
    { intros m X Np. destruct (Mt m X Np) as [Dm Hs]. destruct (Tp m Dm Hs) as (l & t & E & Et & _).
      exists l. split; [exact E|]. destruct l; discriminate. }
    exists s1, ps, s2. split; [reflexivity|]. split; [reflexivity|]. split; [exact E2|].
    intros m a p' v. rewrite L2. cbn [fst snd].
    destruct (String.eqb_spec p' p) as [->|Npp]; cbn [andb].
    - rewrite H. transitivity (drawn_metric m /\ summary_value m algos a v).
      2:{ split; [intros [X Y]; right; auto|]. intros [X|(_ & X)]; [discriminate|exact X]. }
      assert (La : forall v', look s1 (m, a, p) = Some v' <-> drawn_metric m /\ exists q, score_in m algos a q /\ v' = magnitude q).
      { intros v'. rewrite L1, H. split.
        - intros [X|(a' & m' & d & X & E & ->)]; [discriminate|]. injection E as -> ->.
          split; [apply (I a' m' d), X|]. destruct (Sc _ _ _ X) as (q & Y). exists q. exact Y.
        - intros (Dm & q & X & ->). right. destruct (Sc' _ _ _ Dm X) as (d & Y & E).
          exists a, m, d. split; [exact Y|]. split; [reflexivity|congruence]. }
      destruct (look s1 (m, a, p)) as [w|] eqn:Ew.
      + pose proof (proj1 (La w) eq_refl) as (Dm & q & Hq & Eq).
        assert (mem a (map fst algos) = true) as ->.
        { apply mem_iff. destruct Hq as (rs & _ & _ & X & _). apply in_map_iff. exists (a, rs). auto. }
        assert (mem m (metrics_of s1) = true) as -> by (apply mem_iff; apply metrics_in; eauto).
        cbn [andb]. destruct (String.eqb_spec m "pdi") as [->|Np]; cbn [negb].
        * assert (summary_value "pdi" algos a w) as X.
          { exists q. split; [exact Hq|]. split; [auto|congruence]. }
          split; [intros E; injection E as <-; auto|]. intros [_ Y]. f_equal. apply (value_unique _ _ _ _ _ R X Y).
        * destruct (Mt m) as [_ Hs]; [apply metrics_in; eauto|exact Np|].
          destruct (Tp m Dm Hs) as (l & t & E & Et & Ht). rewrite E, Et. cbn [option_map].
          assert (summary_value m algos a (w / (t + 1 / 10000))) as X.
          { exists q. split; [exact Hq|]. split; [congruence|]. intros _. exists t. split; [exact Ht|congruence]. }
          split; [intros Y; injection Y as <-; auto|]. intros [_ Y]. f_equal. apply (value_unique _ _ _ _ _ R X Y).
      + assert (forall v', ~ (drawn_metric m /\ summary_value m algos a v')) as X.
        { intros v' (Dm & q & Hq & _). assert (None = Some (magnitude q)) as Z by (apply La; eauto). discriminate. }
        cbn [option_map]. match goal with |- context [if ?b then _ else _] => destruct b end; (split; [discriminate|intros Y; destruct (X _ Y)]).
    - rewrite L1. split.
      + intros [X|(a' & m' & d & _ & E & _)]; [auto|congruence].
      + intros [X|(X & _)]; [auto|congruence].
  Qed.

  (** A metric met before without a score on this problem. *)
  Lemma one_problem_fails p algos s m : readable algos -> m <> "pdi"%string -> drawn_metric m ->
    In m (metrics_of s) -> (forall m a, look s (m, a, p) = None) -> ~ has_score m algos ->
    exists evs s1 ps, visited boot_size randint p algos = Some evs
      /\ score_events boot_size randint p evs s [] = Some (s1, ps)
      /\ normalise p (map fst algos) ps (metrics_of s1) s1 = None.
  Proof.
    intros R Np Dm Hm H NS. destruct (visited_ok boot_size randint boot_pos draws p algos R) as (evs & Ev & I & ND & NE).
    rewrite Ev. exists evs. rewrite score_events_eq by exact NE. eexists _, _. split; [reflexivity|]. split; [reflexivity|].
    apply (normalise_fails _ _ _ _ _ m).
    - apply metrics_in in Hm. destruct Hm as (a & p' & v & Hm). apply metrics_in. exists a, p', v.
      apply put_all; auto.
    - exact Np.
    - intros l E. apply (group_new String.eqb string_iff) in E. destruct E as [E Nl]. exfalso. apply Nl. rewrite <- E.
      unfold under. replace (filter _ evs) with (@nil (string * string * list Q)); [reflexivity|].
      symmetry. apply filter_none. intros [[a m'] d] X. cbn [fst snd]. apply Bool.not_true_iff_false. rewrite String.eqb_eq.
      intros ->. apply NS. apply I in X. destruct X as (_ & rs & r & X). exists a, rs, r, d. exact X.
  Qed.

  (** ** All problems *)

  (** Every problem has a score in the metrics that an earlier one has a score in. *)
  Definition even (seen : string -> Prop) (stored : list (string * list (string * list result))) : Prop :=
    forall before p algos after m, stored = before ++ (p, algos) :: after -> m <> "pdi"%string -> drawn_metric m ->
      (seen m \/ exists p' algos', In (p', algos') before /\ has_score m algos') -> has_score m algos.

  Lemma summarise_ok : forall stored s, NoDup (map fst stored) ->
    (forall p algos, In (p, algos) stored -> readable algos) ->
    (forall m a p, In p (map fst stored) -> look s (m, a, p) = None) ->
    (forall m, In m (metrics_of s) -> drawn_metric m) ->
    even (fun m => In m (metrics_of s)) stored ->
    exists s', summarise boot_size randint stored s = Some s' /\
      forall m a p v, look s' (m, a, p) = Some v <->
        look s (m, a, p) = Some v \/ exists algos, In (p, algos) stored /\ drawn_metric m /\ summary_value m algos a v.
  Proof.
    induction stored as [|[p algos] stored IH]; intros s N R H D E; cbn [summarise].
    - exists s. split; [reflexivity|]. intros m a p v. split; [auto|]. intros [X|(al & [] & _)]. exact X.
    - cbn [map fst] in N. inversion N as [|? ? N1 N2]; subst.
      destruct (one_problem p algos s) as (evs & s1 & ps & s2 & E1 & E2 & E3 & L).
      + apply (R p). left. reflexivity.
      + intros m a. apply H. left. reflexivity.
      + exact D.
      + intros m Np X. apply (E [] p algos stored m eq_refl Np (D m X)). left. exact X.
      + rewrite E1, E2, E3. destruct (IH s2 N2) as (s' & E' & L').
        * intros p' al X. apply (R p'). right. exact X.
        * intros m a p' X. destruct (look s2 (m, a, p')) as [v|] eqn:Y; [|reflexivity]. exfalso.
          apply L in Y. destruct Y as [Y|(-> & _)]; [|contradiction].
          rewrite H in Y; [discriminate|right; exact X].
        * intros m X. apply metrics_in in X. destruct X as (a & p' & v & X). apply L in X.
          destruct X as [X|(_ & X & _)]; [|exact X]. apply D. apply metrics_in. eauto.
        * intros before p' al after m -> Np Dm S. apply (E ((p, algos) :: before) p' al after m eq_refl Np Dm).
          destruct S as [S|(p1 & al1 & S1 & S2)].
          -- apply metrics_in in S. destruct S as (a & p1 & v & S). apply L in S. destruct S as [S|(-> & _ & q & Hq & _)].
             ++ left. apply metrics_in. eauto.
             ++ right. exists p, algos. split; [left; reflexivity|]. destruct Hq as (rs & r & d & X1 & X2 & X3 & _).
                exists a, rs, r, d. auto.
          -- right. exists p1, al1. split; [right; exact S1|exact S2].
        * exists s'. split; [exact E'|]. intros m a p' v. rewrite L', L. split.
          -- intros [[X|(-> & X)]|(al & X1 & X2)]; [auto| |].
             ++ right. exists algos. split; [left; reflexivity|exact X].
             ++ right. exists al. split; [right; exact X1|exact X2].
          -- intros [X|(al & [X1|X1] & X2)]; [auto| |].
             ++ injection X1 as <- <-. auto.
             ++ right. exists al. auto.
  Qed.

  Lemma summarise_fails : forall stored s before p algos after m, NoDup (map fst stored) ->
    (forall p algos, In (p, algos) stored -> readable algos) ->
    (forall m a p, In p (map fst stored) -> look s (m, a, p) = None) ->
    (forall m, In m (metrics_of s) -> drawn_metric m) ->
    stored = before ++ (p, algos) :: after -> m <> "pdi"%string -> drawn_metric m ->
    (In m (metrics_of s) \/ exists p' algos', In (p', algos') before /\ has_score m algos') ->
    ~ has_score m algos -> summarise boot_size randint stored s = None.
  Proof.
    intros stored s before. revert stored s.
    induction before as [|[p0 al0] before IH]; intros stored s p algos after m N R H D -> Np Dm S NS; cbn [app summarise].
    - destruct S as [S|(p' & al' & [] & _)].
      destruct (one_problem_fails p algos s m) as (evs & s1 & ps & E1 & E2 & E3); auto.
      + apply (R p). left. reflexivity.
      + intros m' a. apply H. left. reflexivity.
      + rewrite E1, E2, E3. reflexivity.
    - cbn [app map fst] in N. inversion N as [|? ? N1 N2]; subst.
      destruct (visited boot_size randint p0 al0) as [evs|] eqn:E1; [|reflexivity].
      destruct (score_events boot_size randint p0 evs s []) as [[s1 ps]|] eqn:E2; [|reflexivity].
      destruct (normalise p0 (map fst al0) ps (metrics_of s1) s1) as [s2|] eqn:E3; [|reflexivity].
      assert (C : forall m, m <> "pdi"%string -> In m (metrics_of s) -> has_score m al0).
      { intros m' Np' X. destruct (score_dec m' al0) as [Y|Y]; [apply (R p0); left; reflexivity|exact Y|]. exfalso.
        destruct (one_problem_fails p0 al0 s m') as (evs' & s1' & ps' & F1 & F2 & F3); auto.
        - apply (R p0). left. reflexivity.
        - intros m1 a. apply H. left. reflexivity.
        - rewrite F1 in E1. injection E1 as <-. rewrite F2 in E2. injection E2 as <- <-. congruence. }
      destruct (one_problem p0 al0 s) as (evs' & s1' & ps' & s2' & F1 & F2 & F3 & L).
      + apply (R p0). left. reflexivity.
      + intros m1 a. apply H. left. reflexivity.
      + exact D.
      + exact C.
      + rewrite F1 in E1. injection E1 as <-. rewrite F2 in E2. injection E2 as <- <-. rewrite F3 in E3. injection E3 as <-.
        apply (IH _ s2' p algos after m N2); auto.
        * intros p' al X. apply (R p'). right. exact X.
        * intros m' a p' X. destruct (look s2' (m', a, p')) as [v|] eqn:Y; [|reflexivity]. exfalso.
          apply L in Y. destruct Y as [Y|(-> & _)]; [|contradiction].
          rewrite H in Y; [discriminate|right; exact X].
        * intros m' X. apply metrics_in in X. destruct X as (a & p' & v & X). apply L in X.
          destruct X as [X|(_ & X & _)]; [|exact X]. apply D. apply metrics_in. eauto.
        * destruct S as [S|(p1 & al1 & [S1|S1] & S2)].
          -- left. apply metrics_in in S. destruct S as (a & p' & v & S). apply metrics_in. exists a, p', v. apply L. auto.
          -- injection S1 as -> ->. left. apply metrics_in. destruct S2 as (a & rs & r & d & X1 & X2 & X3).
             assert (readable al1) as Rd by (apply (R p1); left; reflexivity).
             destruct (value_exists m al1 a Rd) as (v & V); [exists rs, r, d; auto|].
             exists a, p1, v. apply L. auto.
          -- right. eauto.
  Qed.
End Summary.

Section Pictures.
  Variables (boot_size : nat) (randint : string * string * string * Q -> nat -> nat -> nat -> nat).
  Hypothesis boot_pos : (1 <= boot_size)%nat.
  Hypothesis draws : forall c, fair (randint c).

  Lemma points_from_in s metric algo : forall labels x0 x v,
    In (x, v) (points_from s metric algo x0 labels) <->
      exists i p, x = (x0 + i)%nat /\ nth_error labels i = Some p /\ lookup key3_eqb s (metric, algo, p) = Some v.
  Proof.
    induction labels as [|p labels IH]; intros x0 x v; cbn [points_from].
    - split; [intros []|]. intros (i & p & _ & H & _). destruct i; discriminate.
    - rewrite in_app_iff, IH. split.
      + intros [H|(i & p' & -> & H)].
        * destruct (lookup key3_eqb s (metric, algo, p)) as [w|] eqn:E; [|destruct H].
          destruct H as [H|[]]. injection H as <- <-. exists 0%nat, p. split; [lia|auto].
        * exists (S i), p'. split; [lia|exact H].
      + intros ([|i] & p' & -> & H & L).
        * cbn in H. injection H as <-. left. rewrite L. left. f_equal. lia.
        * right. exists i, p'. split; [lia|auto].
  Qed.
  Lemma points_from_sorted s metric algo : forall labels x0,
    StronglySorted (fun a b => (fst a < fst b)%nat) (points_from s metric algo x0 labels).
  Proof.
    induction labels as [|p labels IH]; intros x0; cbn [points_from]; [constructor|].
    destruct (lookup key3_eqb s (metric, algo, p)) as [w|]; cbn [app]; [|apply IH].
    constructor; [apply IH|]. apply Forall_forall. intros [x v] H. apply points_from_in in H.
    destruct H as (i & p' & -> & _). cbn. lia.
  Qed.

  Lemma selects_filter' {A} (P : A -> Prop) f (l : list A) : (forall x, In x l -> (f x = true <-> P x)) -> selects P l (filter f l).
  Proof.
    induction l as [|x l IH]; intros H; cbn [filter]; [constructor|].
    assert (S : selects P l (filter f l)) by (apply IH; intros y Hy; apply H; right; exact Hy).
    pose proof (H x (or_introl eq_refl)) as Hx. destruct (f x); [apply sel_keep|apply sel_drop]; [apply Hx; reflexivity|exact S| |exact S].
    intros X. apply Hx in X. discriminate.
  Qed.

  Lemma labels_same problems : NoDup problems ->
    (Nat.eqb (length (filter (fun p => mem p problems) problems_order)) (length problems) = true
     <-> forall p, In p problems -> In p summary_problems).
  Proof.
    intros N. change problems_order with summary_problems.
    assert (Ns : NoDup summary_problems).
    { assert (forall l, nodup string_dec l = l -> NoDup l) as H by (intros l <-; apply NoDup_nodup). apply H. vm_compute. reflexivity. }
    assert (I : forall p, In p (filter (fun p => mem p problems) summary_problems) <-> In p summary_problems /\ In p problems).
    { intros p. rewrite filter_In, mem_iff. reflexivity. }
    assert (Nf : NoDup (filter (fun p => mem p problems) summary_problems)) by (apply NoDup_filter; exact Ns).
    rewrite Nat.eqb_eq. split.
    - intros E p Hp. apply (NoDup_length_incl Nf) in Hp; [apply I in Hp; apply Hp|lia|].
      intros q Hq. apply I in Hq. apply Hq.
    - intros H. apply Permutation_length. apply NoDup_Permutation; [exact Nf|exact N|].
      intros p. rewrite I. split; [tauto|auto].
  Qed.

  Lemma summarised stored : tidy stored -> even (fun _ => False) stored ->
    exists s, summarise boot_size randint stored [] = Some s /\
      forall m a p v, lookup key3_eqb s (m, a, p) = Some v <->
        exists algos, In (p, algos) stored /\ drawn_metric m /\ summary_value m algos a v.
  Proof.
    intros T E. destruct (summarise_ok boot_size randint boot_pos draws stored []) as (s & Es & L).
    - apply T.
    - intros p al H. apply (tidy_readable stored p al T H).
    - reflexivity.
    - intros m [].
    - intros before p al after m Eq Np Dm S. apply (E before p al after m Eq Np Dm). destruct S as [[]|S]. auto.
    - exists s. split; [exact Es|]. intros m a p v. rewrite L. cbn [lookup]. split; [intros [X|X]; [discriminate|exact X]|auto].
  Qed.

  Definition picture (problems : list string) (s : list (key3 * R)) (selected : list string) (metric : string) : summary :=
    {| s_metric := metric; s_ylim := ylim metric; s_labels := filter (fun p => mem p problems) problems_order;
       s_series := map (fun algo => (algo, points_from s metric algo 0 (filter (fun p => mem p problems) problems_order),
                                     mem algo selected)) algos_order |}.
  Lemma plot_eq problems s selected :
    Nat.eqb (length (filter (fun p => mem p problems) problems_order)) (length problems) = true ->
    plot_results_summary problems s selected = Some (map (picture problems s selected) (metrics_of s)).
  Proof. intros E. unfold plot_results_summary. rewrite E. destruct (metrics_of s); reflexivity. Qed.

  Lemma summary_ok selected stored : tidy stored -> even (fun _ => False) stored ->
    (forall p, In p (map fst stored) -> In p summary_problems) ->
    exists pics, pictures_summary boot_size randint selected stored = Some pics
      /\ NoDup (map s_metric pics)
      /\ (forall m, In m (map s_metric pics) <->
            drawn_metric m /\ exists p algos, In (p, algos) stored /\ has_score m algos)
      /\ (forall pic, In pic pics ->
            selects (fun p => In p (map fst stored)) summary_problems (s_labels pic)
            /\ map (fun l => fst (fst l)) (s_series pic) = curve_names
            /\ forall algo points joined, In (algo, points, joined) (s_series pic) ->
                 (joined = true <-> In algo selected)
                 /\ StronglySorted (fun a b => (fst a < fst b)%nat) points
                 /\ forall x v, In (x, v) points <->
                      exists p algos, nth_error (s_labels pic) x = Some p /\ In (p, algos) stored
                        /\ summary_value (s_metric pic) algos algo v)
      /\ (forall pic, In pic pics -> s_ylim pic = ylim (s_metric pic)).
  Proof.
    intros T E K. destruct (summarised stored T E) as (s & Es & L). unfold pictures_summary. rewrite Es.
    assert (M : forall m, In m (metrics_of s) <-> drawn_metric m /\ exists p algos, In (p, algos) stored /\ has_score m algos).
    { intros m. rewrite metrics_in. split.
      - intros (a & p & v & X). apply L in X. destruct X as (al & X & Dm & q & (rs & r & d & Y1 & Y2 & Y3 & _) & _).
        split; [exact Dm|]. exists p, al. split; [exact X|]. exists a, rs, r, d. auto.
      - intros (Dm & p & al & X & a & rs & r & d & Y). destruct (value_exists m al a (tidy_readable stored p al T X)) as (v & V); [eauto|].
        exists a, p, v. apply L. eauto. }
    rewrite (plot_eq (map fst stored) s selected (proj2 (labels_same (map fst stored) (proj1 T)) K)).
    eexists. split; [reflexivity|].
    rewrite map_map. cbn [picture s_metric]. rewrite map_id.
    split; [apply NoDup_nodup|]. split; [exact M|].
    split.
    - intros pic H. apply in_map_iff in H. destruct H as (m & <- & Hm). unfold picture. cbn [s_metric s_labels s_series].
      split; [|split].
      + apply selects_filter'. intros p _. apply mem_iff.
      + rewrite map_map. cbn [fst]. rewrite map_id. apply order_names.
      + intros algo points joined I. revert I. generalize (filter (fun p => mem p (map fst stored)) problems_order).
        generalize algos_order. intros names labels I.
        apply in_map_iff in I. destruct I as (a & Ea & Ia). injection Ea as <- <- <-.
        split; [apply mem_iff|]. split; [apply points_from_sorted|].
        intros x v. rewrite points_from_in. split.
        * intros (i & p & -> & X1 & X2). apply L in X2. destruct X2 as (al & X2 & _ & X3). exists p, al. auto.
        * intros (p & al & X1 & X2 & X3). exists x, p. split; [reflexivity|]. split; [exact X1|]. apply L.
          exists al. split; [exact X2|]. split; [|exact X3]. apply M in Hm. apply Hm.
    - intros pic H. apply in_map_iff in H. destruct H as (m & <- & _). reflexivity.
  Qed.

  Lemma summary_uneven selected stored before p algos after m : tidy stored ->
    stored = before ++ (p, algos) :: after -> m <> "pdi"%string -> drawn_metric m ->
    (exists p' algos', In (p', algos') before /\ has_score m algos') -> ~ has_score m algos ->
    pictures_summary boot_size randint selected stored = None.
  Proof.
    intros T E Np Dm S NS. unfold pictures_summary.
    rewrite (summarise_fails boot_size randint boot_pos draws stored [] before p algos after m); auto.
    - apply T.
    - intros p' al H. apply (tidy_readable stored p' al T H).
    - intros m' [].
  Qed.

  Lemma summary_unknown selected stored p : tidy stored -> In p (map fst stored) -> ~ In p summary_problems ->
    (exists p algos m, In (p, algos) stored /\ drawn_metric m /\ has_score m algos) ->
    pictures_summary boot_size randint selected stored = None.
  Proof.
    intros T Hp NK (p1 & al1 & m & X & Dm & HS). unfold pictures_summary.
    destruct (summarise boot_size randint stored []) as [s|] eqn:Es; [|reflexivity].
    assert (N : Nat.eqb (length (filter (fun p => mem p (map fst stored)) problems_order)) (length (map fst stored)) = false).
    { apply Bool.not_true_iff_false. rewrite (labels_same _ (proj1 T)). auto. }
    unfold plot_results_summary. rewrite N.
    assert (In m (metrics_of s)) as I; [|destruct (metrics_of s); [destruct I|reflexivity]].
    assert (E : even (fun _ => False) stored).
    { intros before p' al after m' Eq Np Dm' S.
      assert (Rd : readable al).
      { apply (tidy_readable stored p' al T). rewrite Eq. apply in_or_app. right. left. reflexivity. }
      destruct (score_dec m' al Rd) as [Y|Y]; [exact Y|]. exfalso.
      destruct S as [[]|S].
      assert (Z := summary_uneven [] stored before p' al after m' T Eq Np Dm' S Y). 
      rewrite (summarise_fails boot_size randint boot_pos draws stored [] before p' al after m') in Es; auto; try discriminate.
      - apply T.
      - intros p2 al2 H. apply (tidy_readable stored p2 al2 T H).
      - intros m2 []. }
    destruct (summarised stored T E) as (s' & Es' & L). rewrite Es' in Es. injection Es as <-.
    apply metrics_in. destruct HS as (a & rs & r & d & Y).
    destruct (value_exists m al1 a (tidy_readable stored p1 al1 T X)) as (v & V); [eauto|].
    exists a, p1, v. apply L. eauto.
  Qed.
End Pictures.

(** ** The drawn values *)

Lemma value_range m algos a v : m <> "pdi"%string -> summary_value m algos a v -> (0 <= v < 1)%R.
Proof.
  intros N (s & S & _ & H). destruct (H N) as (t & [_ M] & ->). specialize (M a s S).
  pose proof (magnitude_nonneg s). split.
  - apply Rmult_le_pos; [lra|]. apply Rlt_le, Rinv_0_lt_compat. lra.
  - apply (Rmult_lt_reg_r (t + 1 / 10000)); [lra|]. unfold Rdiv. rewrite Rmult_assoc, Rinv_l by lra. lra.
Qed.

Lemma magnitude_increasing s s' : (0 <= s)%Q -> (s < s')%Q -> (magnitude s < magnitude s')%R.
Proof.
  intros H L. apply Qreals.Qlt_Rlt in L. apply Qreals.Qle_Rle in H. unfold magnitude.
  replace (Q2R 0) with 0%R in H by (unfold Q2R; cbn; lra).
  rewrite !Rabs_pos_eq by lra. apply ln_increasing; lra.
Qed.

Lemma value_order m algos a b s t v w : readable algos ->
  score_in m algos a s -> score_in m algos b t -> summary_value m algos a v -> summary_value m algos b w ->
  (0 <= s)%Q -> (0 <= t)%Q -> ((s < t)%Q <-> (v < w)%R).
Proof.
  intros R A B (s' & A' & Pv & Tv) (t' & B' & Pw & Tw) Hs Ht.
  assert (V : (magnitude s < magnitude t <-> v < w)%R).
  { rewrite (magnitude_eq s s' (score_unique _ _ _ _ _ R A A')), (magnitude_eq t t' (score_unique _ _ _ _ _ R B B')).
    destruct (string_dec m "pdi") as [E|N].
    - rewrite (Pv E), (Pw E). reflexivity.
    - destruct (Tv N) as (x & X & ->), (Tw N) as (y & Y & ->). rewrite (top_unique _ _ _ _ R Y X).
      destruct X as [(a0 & s0 & _ & ->) _]. pose proof (magnitude_nonneg s0).
      split; intros L.
      + apply Rmult_lt_compat_r; [apply Rinv_0_lt_compat; lra|exact L].
      + apply (Rmult_lt_reg_r (/ (magnitude s0 + 1 / 10000))); [apply Rinv_0_lt_compat; lra|exact L]. }
  rewrite <- V. split; [apply magnitude_increasing; exact Hs|].
  intros L. destruct (Qlt_le_dec s t) as [X|X]; [exact X|]. exfalso.
  apply Qle_lteq in X. destruct X as [X|X].
  - pose proof (magnitude_increasing t s Ht X). lra.
  - rewrite (magnitude_eq t s X) in L. lra.
Qed.
