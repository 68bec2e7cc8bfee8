(** Proofs about the drawn data. *)
From Coq Require Import Reals Qreals Lqa.
From Verif Require Import StatModel StatSpec StatProofs StatBoot StatRank StatTable SortProofs Base.
From Verif Require Import PlotModel PlotSpec.
Local Open Scope Q_scope.
Local Open Scope list_scope.

Lemma nodup_app {A} (l l' : list A) : NoDup l -> NoDup l' -> (forall x, In x l -> ~ In x l') -> NoDup (l ++ l').
Proof.
  intros N N' D. induction N as [|x l H N IH]; cbn; [exact N'|]. constructor.
  - rewrite in_app_iff. intros [X|X]; [auto|]. apply (D x); [left; reflexivity|exact X].
  - apply IH. intros y Hy. apply D. right. exact Hy.
Qed.

(** ** Dictionaries *)
Section Dict.
  Context {K V : Type}.
  Variable eqb : K -> K -> bool.
  Hypothesis eqb_iff : forall a b, eqb a b = true <-> a = b.

  Lemma eqb_spec a b : Bool.reflect (a = b) (eqb a b).
  Proof. apply Bool.iff_reflect. symmetry. apply eqb_iff. Qed.
  Lemma eqb_refl a : eqb a a = true.
  Proof. apply eqb_iff. reflexivity. Qed.

  Lemma lookup_update (d : list (K * V)) k z f k' :
    lookup eqb (update eqb d k z f) k'
    = if eqb k k' then Some (f (match lookup eqb d k with Some v => v | None => z end)) else lookup eqb d k'.
  Proof.
    induction d as [|[k0 v] d IH]; cbn [update lookup]; [reflexivity|].
    destruct (eqb_spec k0 k) as [->|N]; cbn [lookup].
    - destruct (eqb_spec k k') as [->|N']; reflexivity.
    - rewrite IH. destruct (eqb_spec k0 k') as [->|N0]; [|reflexivity].
      destruct (eqb_spec k k'); [congruence|reflexivity].
  Qed.

  Lemma update_keys (d : list (K * V)) k z f :
    map fst (update eqb d k z f)
    = match lookup eqb d k with Some _ => map fst d | None => map fst d ++ [k] end.
  Proof.
    induction d as [|[k0 v] d IH]; cbn [update lookup map fst]; [reflexivity|].
    destruct (eqb_spec k0 k) as [->|N]; cbn [map fst]; [reflexivity|].
    rewrite IH. destruct (lookup eqb d k); reflexivity.
  Qed.

  Lemma lookup_none (d : list (K * V)) k : lookup eqb d k = None <-> ~ In k (map fst d).
  Proof.
    induction d as [|[k0 v] d IH]; cbn [lookup map fst In]; [tauto|].
    destruct (eqb_spec k0 k) as [->|N].
    - split; [discriminate|tauto].
    - rewrite IH. tauto.
  Qed.

  Lemma update_nodup (d : list (K * V)) k z f : NoDup (map fst d) -> NoDup (map fst (update eqb d k z f)).
  Proof.
    intros N. rewrite update_keys. destruct (lookup eqb d k) eqn:E; [exact N|].
    apply lookup_none in E. apply nodup_app; auto.
    - constructor; [intros []|constructor].
    - intros x Hx [<-|[]]. apply E, Hx.
  Qed.

  Lemma lookup_In (d : list (K * V)) k v : NoDup (map fst d) -> (In (k, v) d <-> lookup eqb d k = Some v).
  Proof.
    induction d as [|[k0 v0] d IH]; cbn [lookup map fst In]; intros N; [split; [intros []|discriminate]|].
    inversion N as [|? ? N1 N2]; subst. destruct (eqb_spec k0 k) as [->|Ne].
    - split.
      + intros [E|H]; [congruence|]. exfalso. apply N1. apply in_map_iff. exists (k, v). auto.
      + intros E. left. congruence.
    - rewrite <- (IH N2). split; [intros [E|H]; [congruence|exact H]|auto].
  Qed.
End Dict.

(** A defaultdict(list) filled by appending. *)
Section Group.
  Context {E K V : Type}.
  Variable eqb : K -> K -> bool.
  Hypothesis eqb_iff : forall a b, eqb a b = true <-> a = b.
  Variables (ky : E -> K) (vl : E -> V).
  Definition add (d : list (K * list V)) (e : E) : list (K * list V) :=
    update eqb d (ky e) [] (fun l => l ++ [vl e]).
  Definition under (es : list E) (k : K) : list V := map vl (filter (fun e => eqb (ky e) k) es).

  Lemma group_lookup es : forall d k,
    lookup eqb (fold_left add es d) k
    = match lookup eqb d k, under es k with
      | Some l, sel => Some (l ++ sel)
      | None, [] => None
      | None, sel => Some sel
      end.
  Proof.
    induction es as [|e es IH]; intros d k; cbn [fold_left].
    - destruct (lookup eqb d k); [rewrite app_nil_r|]; reflexivity.
    - rewrite IH. unfold add at 1. rewrite (lookup_update eqb eqb_iff).
      unfold under. cbn [filter]. destruct (eqb_spec eqb eqb_iff (ky e) k) as [<-|N]; [|reflexivity].
      cbn [map]. destruct (lookup eqb d (ky e)) as [l|]; [rewrite <- app_assoc|]; reflexivity.
  Qed.

  Lemma group_nodup es : forall d, NoDup (map fst d) -> NoDup (map fst (fold_left add es d)).
  Proof.
    induction es as [|e es IH]; intros d N; cbn [fold_left]; [exact N|].
    apply IH. apply (update_nodup eqb eqb_iff). exact N.
  Qed.

  Lemma group_new es k l :
    lookup eqb (fold_left add es []) k = Some l <-> under es k = l /\ l <> [].
  Proof.
    rewrite group_lookup. cbn [lookup]. destruct (under es k) as [|v vs].
    - split; [discriminate|intros [<- H]; congruence].
    - split; [intros H; injection H as <-; split; [reflexivity|discriminate]|intros [<- _]; reflexivity].
  Qed.
End Group.

Lemma string_iff a b : String.eqb a b = true <-> a = b.
Proof. apply String.eqb_eq. Qed.
Lemma key3_iff a b : key3_eqb a b = true <-> a = b.
Proof.
  unfold key3_eqb. rewrite Bool.andb_true_iff, key_eqb_iff, String.eqb_eq.
  destruct a, b; cbn. split; [intros [-> ->]; reflexivity|intros E; injection E as -> ->; auto].
Qed.
Lemma mem_iff x l : mem x l = true <-> In x l.
Proof.
  unfold mem. rewrite existsb_exists. split.
  - intros (y & H & E). apply String.eqb_eq in E. subst. exact H.
  - intros H. exists x. split; [exact H|apply String.eqb_refl].
Qed.

Lemma incl_dec_ok (l l' : list string) : forallb (fun x => mem x l') l = true -> forall x, In x l -> In x l'.
Proof. rewrite forallb_forall. intros H x Hx. apply mem_iff. apply H, Hx. Qed.

Lemma order_names : algos_order = curve_names.
Proof. reflexivity. Qed.
Lemma front_names algo : mem algo algos = true <-> front_name algo.
Proof.
  rewrite mem_iff. unfold front_name. rewrite <- in_app_iff. split; revert algo; apply incl_dec_ok; vm_compute; reflexivity.
Qed.
Lemma curve_names_nodup : NoDup curve_names.
Proof.
  assert (forall l, nodup string_dec l = l -> NoDup l) as H.
  { intros l <-. apply NoDup_nodup. }
  apply H. vm_compute. reflexivity.
Qed.

Lemma drawn_iff m : drawn_metric m <-> best_func m <> None.
Proof.
  split.
  - intros (l & t & H). apply ranked_iff in H. destruct H as [-> _]. discriminate.
  - intros H. destruct (best_func m) as [l|] eqn:E; [|congruence].
    exists l, (winner_tolerance m). apply ranked_iff. auto.
Qed.
Lemma ranked_items_in items m d : In (m, d) (ranked_items items) <-> In (m, d) items /\ drawn_metric m.
Proof.
  unfold ranked_items. rewrite filter_In, drawn_iff. cbn [fst].
  destruct (best_func m); split; intros [H1 H2]; split; congruence.
Qed.
Lemma filter_keys_nodup {A B} (f : A * B -> bool) l : NoDup (map fst l) -> NoDup (map fst (filter f l)).
Proof.
  induction l as [|[a b] l IH]; cbn; intros N; [constructor|].
  inversion N as [|? ? N1 N2]; subst. destruct (f (a, b)); cbn; [|auto].
  constructor; [|auto]. intros H. apply N1. apply in_map_iff in H. destruct H as (x & <- & H).
  apply filter_In in H. apply in_map. apply H.
Qed.

Section Reading.
  Variables (boot_size : nat) (randint : string * string * string * Q -> nat -> nat -> nat -> nat).
  Hypothesis boot_pos : (1 <= boot_size)%nat.
  Hypothesis draws : forall c, fair (randint c).

  Lemma score_some c data : data <> [] -> exists s, score_of boot_size randint c data = Some s /\ is_mean data s.
  Proof.
    intros N. destruct (analysis_some (randint c) data boot_size (draws c) N boot_pos) as (a & E).
    destruct (analysis_inv _ _ _ _ E) as (_ & q1 & q3 & I).
    destruct I as (_ & _ & _ & _ & _ & _ & _ & _ & _ & M & _ & _ & _ & B).
    exists (a_mean a). unfold score_of. rewrite E, B. auto.
  Qed.

  (** ** The visited values *)

  Definition readable (algos : list (string * list result)) : Prop :=
    NoDup (map fst algos)
    /\ forall algo rs, In (algo, rs) algos -> rs <> [] /\ forall r, In r rs -> fresh r.

  Lemma tidy_readable stored p algos : tidy stored -> In (p, algos) stored -> readable algos.
  Proof.
    intros [_ T] H. destruct (T p algos H) as [N F]. split; [exact N|].
    intros a rs Ha. destruct (F a rs Ha) as [Nr Fr]. split; [exact Nr|]. intros r Hr. apply (Fr r Hr).
  Qed.

  Lemma visited_ok p : forall algos, readable algos ->
    exists evs, visited boot_size randint p algos = Some evs
      /\ (forall algo m d, In (algo, m, d) evs <->
            drawn_metric m /\ exists rs r, In (algo, rs) algos /\ accepted rs r /\ has_metric r m d)
      /\ NoDup (map fst evs)
      /\ (forall algo m d, In (algo, m, d) evs -> d <> []).
  Proof.
    induction algos as [|[a rs] algos IH]; intros [N F]; cbn [visited].
    - exists []. split; [reflexivity|]. split; [|split; [constructor|intros ? ? ? []]].
      intros algo m d. split; [intros []|intros (_ & rs & r & [] & _)].
    - cbn [map fst] in N. inversion N as [|? ? N1 N2]; subst.
      destruct IH as (evs & E & I & ND & NE).
      { split; [exact N2|]. intros a' rs' H. apply (F a' rs'). right. exact H. }
      rewrite E. destruct (F a rs (or_introl eq_refl)) as [Nrs Fr].
      assert (Na : forall m d, ~ In (a, m, d) evs).
      { intros m d H. apply I in H. destruct H as (_ & rs' & r & H & _). apply N1.
        apply in_map_iff. exists (a, rs'). auto. }
      destruct (find_ok boot_size _ randint boot_pos draws
                  (fun r => (p, a, "cost"%string, r_budget r)) rs Nrs Fr)
        as [[Ef H]|(r & costs & rest & A & Er & Ef)]; rewrite Ef.
      + exists evs. split; [reflexivity|]. split; [|auto]. intros algo m d. rewrite I.
        split; intros (Dm & rs' & r & X & Y & Z); (split; [exact Dm|]).
        * exists rs', r. split; [right; exact X|auto].
        * destruct X as [X|X]; [|exists rs', r; auto]. injection X as <- <-. exfalso.
          destruct Y as (b & x & y & L & Ex & Af & _). apply (H b r L); [|exact Af].
          rewrite Ex. apply in_or_app. right. left. reflexivity.
      + cbn [r_analysis]. pose proof (Fr r (accepted_in _ _ A)) as (_ & NDr & NEr).
        rewrite Er in NDr. cbn [map fst] in NDr. inversion NDr as [|? ? ND1 ND2]; subst.
        eexists. split; [reflexivity|].
        assert (J : forall algo m d, In (algo, m, d) (map (fun it => (a, fst it, snd it)) (ranked_items rest))
                    <-> algo = a /\ drawn_metric m /\ has_metric r m d).
        { intros algo m d. rewrite in_map_iff. unfold has_metric. rewrite Er. split.
          - intros ([m' d'] & X & Y). cbn in X. injection X as <- <- <-. apply ranked_items_in in Y.
            split; [reflexivity|]. split; [apply Y|right; apply Y].
          - intros (-> & Dm & [X|X]).
            + injection X as <- <-. destruct Dm as (l & t & Dm). exfalso. apply (cost_not_ranked _ _ Dm).
            + exists (m, d). split; [reflexivity|]. apply ranked_items_in. auto. }
        split; [|split].
        * intros algo m d. rewrite in_app_iff, J, I. split.
          -- intros [(-> & Dm & Hm)|(Dm & rs' & r' & X & Y & Z)]; (split; [exact Dm|]).
             ++ exists rs, r. split; [left; reflexivity|auto].
             ++ exists rs', r'. split; [right; exact X|auto].
          -- intros (Dm & rs' & r' & [X|X] & Y & Z).
             ++ injection X as <- <-. left. rewrite (accepted_unique _ _ _ A Y). auto.
             ++ right. split; [exact Dm|]. exists rs', r'. auto.
        * rewrite map_app. apply nodup_app.
          -- rewrite map_map. cbn [fst].
             assert (NI : NoDup (map fst (ranked_items rest))) by (apply filter_keys_nodup; exact ND2).
             rewrite <- (map_map fst (fun m => (a, m))). apply FinFun.Injective_map_NoDup; [|exact NI].
             intros x y Exy. congruence.
          -- exact ND.
          -- intros [a' m] X Y. apply in_map_iff in X. destruct X as ([[a1 m1] d1] & X1 & X2).
             cbn in X1. injection X1 as -> ->. apply J in X2. destruct X2 as [-> _].
             apply in_map_iff in Y. destruct Y as ([[a2 m2] d2] & Y1 & Y2). cbn in Y1.
             injection Y1 as -> ->. apply (Na _ _ Y2).
        * intros algo m d X. apply in_app_iff in X. destruct X as [X|X]; [|apply (NE _ _ _ X)].
          apply J in X. destruct X as (_ & _ & X). apply (NEr m d X).
  Qed.

  (** ** Violins *)

  Definition lookup2 (d : list (key * list (string * list Q))) (p m a : string) : option (list Q) :=
    match lookup key_eqb d (p, m) with Some dd => lookup String.eqb dd a | None => None end.

  Lemma lookup2_note p d a m v p' m' a' :
    lookup2 (note p d (a, m, v)) p' m' a'
    = if (key_eqb (p, m) (p', m') && String.eqb a a')%bool then Some v else lookup2 d p' m' a'.
  Proof.
    unfold lookup2, note. rewrite (lookup_update _ key_eqb_iff).
    destruct (key_eqb_spec (p, m) (p', m')) as [E|N]; cbn [andb]; [|reflexivity].
    injection E as <- <-. rewrite (lookup_update _ string_iff).
    destruct (String.eqb a a') eqn:Ea; [reflexivity|].
    destruct (lookup key_eqb d (p, m)); reflexivity.
  Qed.

  Lemma note_all p : forall evs d, NoDup (map fst evs) ->
    (forall a m v, In (a, m, v) evs -> lookup2 d p m a = None) ->
    forall p' m' a' v', lookup2 (fold_left (note p) evs d) p' m' a' = Some v' <->
      lookup2 d p' m' a' = Some v' \/ (p' = p /\ In (a', m', v') evs).
  Proof.
    induction evs as [|[[a m] v] evs IH]; intros d N H p' m' a' v'; cbn [fold_left].
    - cbn. tauto.
    - cbn [map fst] in N. inversion N as [|? ? N1 N2]; subst. rewrite IH; [|exact N2|].
      + rewrite lookup2_note. destruct (key_eqb_spec (p, m) (p', m')) as [E|Ne]; cbn [andb].
        * injection E as <- <-. destruct (String.eqb_spec a a') as [<-|Na].
          -- rewrite (H a m v (or_introl eq_refl)). cbn [In]. split.
             ++ intros [E|[_ E]]; [injection E as <-; auto|right; auto].
             ++ intros [E|[_ [E|E]]]; [discriminate|left; congruence|].
                exfalso. apply N1. apply in_map_iff. exists (a, m, v'). auto.
          -- cbn [In]. split; [tauto|]. intros [E|[E1 [E|E]]]; [auto|congruence|auto].
        * cbn [In]. split; [tauto|]. intros [E|[E1 [E|E]]]; [auto|congruence|auto].
      + intros a1 m1 v1 H1. rewrite lookup2_note.
        destruct (key_eqb_spec (p, m) (p, m1)) as [E|Ne]; cbn [andb].
        * injection E as <-. destruct (String.eqb_spec a a1) as [<-|Na].
          -- exfalso. apply N1. apply in_map_iff. exists (a, m, v1). auto.
          -- apply (H a1 m v1). right. exact H1.
        * apply (H a1 m1 v1). right. exact H1.
  Qed.

  Lemma note_nodup p evs : forall d, NoDup (map fst d) -> NoDup (map fst (fold_left (note p) evs d)).
  Proof.
    induction evs as [|[[a m] v] evs IH]; intros d N; cbn [fold_left]; [exact N|].
    apply IH. apply (update_nodup _ key_eqb_iff). exact N.
  Qed.

  (** The value of a metric in the accepted result of an algorithm. *)
  Definition found (stored : list (string * list (string * list result))) p m a (v : list Q) : Prop :=
    drawn_metric m /\ exists algos rs r, In (p, algos) stored /\ In (a, rs) algos /\ accepted rs r /\ has_metric r m v.

  Lemma gather_ok : forall stored d, NoDup (map fst stored) ->
    (forall p algos, In (p, algos) stored -> readable algos) ->
    (forall p m a, In p (map fst stored) -> lookup2 d p m a = None) -> NoDup (map fst d) ->
    exists d', gather boot_size randint stored d = Some d' /\ NoDup (map fst d')
      /\ forall p m a v, lookup2 d' p m a = Some v <-> lookup2 d p m a = Some v \/ found stored p m a v.
  Proof.
    induction stored as [|[p algos] stored IH]; intros d N R H ND; cbn [gather].
    - exists d. split; [reflexivity|]. split; [exact ND|]. intros p m a v. split; [auto|].
      intros [E|(_ & al & rs & r & [] & _)]. exact E.
    - cbn [map fst] in N. inversion N as [|? ? N1 N2]; subst.
      destruct (visited_ok p algos (R p algos (or_introl eq_refl))) as (evs & E & I & NE & _).
      rewrite E. assert (H0 : forall a m v, In (a, m, v) evs -> lookup2 d p m a = None).
      { intros a m v _. apply H. left. reflexivity. }
      pose proof (note_all p evs d NE H0) as NA.
      destruct (IH (fold_left (note p) evs d) N2) as (d' & E' & ND' & L).
      + intros p' al Hp. apply (R p'). right. exact Hp.
      + intros p' m a Hp. destruct (lookup2 (fold_left (note p) evs d) p' m a) as [v|] eqn:Ev; [|reflexivity].
        apply NA in Ev. destruct Ev as [Ev|[-> _]]; [|exfalso; apply N1, Hp].
        rewrite H in Ev; [discriminate|right; exact Hp].
      + apply note_nodup. exact ND.
      + exists d'. split; [exact E'|]. split; [exact ND'|]. intros p' m a v. rewrite L, NA. unfold found. split.
        * intros [[X|[-> X]]|(Dm & al & rs & r & X & Y)]; [auto| |].
          -- right. apply I in X. destruct X as (Dm & rs & r & X & Y). split; [exact Dm|].
             exists algos, rs, r. split; [left; reflexivity|auto].
          -- right. split; [exact Dm|]. exists al, rs, r. split; [right; exact X|exact Y].
        * intros [X|(Dm & al & rs & r & [X|X] & Y)]; [auto| |].
          -- injection X as <- <-. left. right. split; [reflexivity|]. apply I. split; [exact Dm|]. eauto.
          -- right. split; [exact Dm|]. exists al, rs, r. auto.
  Qed.

  Lemma selects_filter {A} (P : A -> Prop) f (l : list A) :
    (forall x, In x l -> (f x = true <-> P x)) -> selects P l (filter f l).
  Proof.
    induction l as [|x l IH]; cbn [filter]; intros H; [constructor|].
    pose proof (H x (or_introl eq_refl)) as Hx.
    assert (IH' : selects P l (filter f l)) by (apply IH; intros y Hy; apply H; right; exact Hy).
    destruct (f x); [apply sel_keep|apply sel_drop]; auto; [apply Hx; reflexivity|].
    intros X. apply Hx in X. discriminate.
  Qed.

  Lemma all_zero_iff data : all_zero data = false <-> exists x, In x data /\ ~ x == 0.
  Proof.
    induction data as [|x data IH]; cbn [all_zero forallb].
    - split; [discriminate|intros (x & [] & _)].
    - destruct (Qeq_bool x 0) eqn:E; cbn [andb].
      + unfold all_zero in IH. rewrite IH. apply Qeq_bool_iff in E. split.
        * intros (y & H & H'). exists y. split; [right; exact H|exact H'].
        * intros (y & [<-|H] & H'); [contradiction|]. exists y. auto.
      + split; [|reflexivity]. intros _. exists x. split; [left; reflexivity|]. apply Qeq_bool_neq. exact E.
  Qed.

  Definition prep (v : Q) : Q := if Qeq_bool v 0 then epsilon else v.

  Lemma prep_ok data : Forall2 (fun x v => (x == 0 -> v == machine_eps) /\ (~ x == 0 -> v = x)) data (map prep data).
  Proof.
    induction data as [|x data IH]; cbn [map]; constructor; [|exact IH]. unfold prep.
    destruct (Qeq_bool x 0) eqn:E.
    - apply Qeq_bool_iff in E. split; [intros _; symmetry; apply eps_eq|intros H; contradiction].
    - apply Qeq_bool_neq in E. split; [intros H; contradiction|reflexivity].
  Qed.

  Lemma combine_map {A B} (f : A -> B) l : combine l (map f l) = map (fun a => (a, f a)) l.
  Proof. induction l as [|x l IH]; cbn; [reflexivity|rewrite IH; reflexivity]. Qed.

  Lemma violin_figure_in drawable p m dd f : In f (violin_figure drawable ((p, m), dd)) <->
    accepted_algos dd <> [] /\ drawable (prepare_data (map (data_of dd) (accepted_algos dd))) = true
    /\ f = {| v_problem := p; v_metric := m;
              v_drawn := map (fun a => (a, map prep (data_of dd a))) (accepted_algos dd) |}.
  Proof.
    unfold violin_figure. set (acc := accepted_algos dd).
    assert (E : combine acc (prepare_data (map (data_of dd) acc)) = map (fun a => (a, map prep (data_of dd a))) acc).
    { unfold prepare_data. rewrite map_map. apply combine_map. }
    rewrite E. destruct acc as [|a acc]; cbn [map prepare_data].
    - split; [intros []|intros [H _]; congruence].
    - change (map (map (fun v => if Qeq_bool v 0 then epsilon else v)) (data_of dd a :: map (data_of dd) acc))
        with (prepare_data (data_of dd a :: map (data_of dd) acc)) in *.
      destruct (drawable _) eqn:Dr; cbn [In].
      + split; [intros [<-|[]]; split; [discriminate|auto]|intros (_ & _ & ->); left; reflexivity].
      + split; [intros []|]. intros (_ & X & _). unfold prepare_data in Dr. cbn [map] in Dr, X. congruence.
  Qed.

  Lemma violin_figure_one drawable (k : key) dd : violin_figure drawable (k, dd) = []
    \/ exists f, violin_figure drawable (k, dd) = [f] /\ v_problem f = fst k /\ v_metric f = snd k.
  Proof.
    unfold violin_figure. destruct k as [p m]. destruct (prepare_data _); [auto|]. destruct (drawable _); [|auto].
    right. eexists. split; [reflexivity|]. auto.
  Qed.

  Lemma violin_keys drawable : forall d, NoDup (map fst d) ->
    NoDup (map (fun f => (v_problem f, v_metric f)) (flat_map (violin_figure drawable) d))
    /\ forall f, In f (flat_map (violin_figure drawable) d) -> In (v_problem f, v_metric f) (map fst d).
  Proof.
    induction d as [|[[p m] dd] d IH]; intros N; cbn [flat_map map]; [split; [constructor|intros f []]|].
    cbn [map fst] in N. inversion N as [|? ? N1 N2]; subst. destruct (IH N2) as [I1 I2].
    destruct (violin_figure_one drawable (p, m) dd) as [E|(f & E & Ep & Em)]; rewrite E.
    - cbn [app]. split; [exact I1|]. intros f Hf. right. apply (I2 f Hf).
    - cbn [app map fst]. cbn [fst snd] in Ep, Em. rewrite Ep, Em. split.
      + constructor; [|exact I1]. intros X. apply N1. apply in_map_iff in X. destruct X as (g & Eg & Hg).
        rewrite <- Eg. apply I2. exact Hg.
      + intros g [<-|Hg]; [left; rewrite Ep, Em; reflexivity|right; apply I2; exact Hg].
  Qed.

  Lemma accepted_algos_in dd a : In a (accepted_algos dd) <->
    In a curve_names /\ exists data, lookup String.eqb dd a = Some data /\ exists x, In x data /\ ~ x == 0.
  Proof.
    unfold accepted_algos. rewrite filter_In, order_names. destruct (lookup String.eqb dd a) as [data|].
    - rewrite Bool.negb_true_iff, all_zero_iff. split.
      + intros [H X]. split; [exact H|]. exists data. auto.
      + intros [H (d & E & X)]. injection E as <-. auto.
    - split; [intros [_ H]; discriminate|]. intros [_ (d & E & _)]. discriminate.
  Qed.

  Lemma violin_ok drawable stored : tidy stored ->
    exists figs, violin boot_size randint drawable stored = Some figs
      /\ NoDup (map (fun f => (v_problem f, v_metric f)) figs)
      /\ (forall f, In f figs -> exists algos, In (v_problem f, algos) stored /\ drawn_metric (v_metric f)
             /\ v_drawn f <> []
             /\ selects (fun a => exists values, violin_of algos (v_metric f) a values)
                        curve_names (map fst (v_drawn f))
             /\ forall a values, In (a, values) (v_drawn f) -> violin_of algos (v_metric f) a values)
      /\ ((forall data, drawable data = true) ->
          forall p algos m a values, In (p, algos) stored -> drawn_metric m -> In a curve_names ->
            violin_of algos m a values ->
            exists f, In f figs /\ v_problem f = p /\ v_metric f = m).
  Proof.
    intros T. pose proof T as [N _]. unfold violin.
    destruct (gather_ok stored [] N (fun p al => tidy_readable stored p al T)) as (d & E & ND & L).
    { intros; reflexivity. } { constructor. }
    rewrite E. set (d' := update key_eqb d ("UF2", "pdi")%string [] (fun m => m)).
    assert (ND' : NoDup (map fst d')) by (apply (update_nodup _ key_eqb_iff); exact ND).
    assert (L' : forall p m a v, lookup2 d' p m a = Some v <-> found stored p m a v).
    { intros p m a v. transitivity (lookup2 d p m a = Some v).
      - unfold lookup2, d'. rewrite (lookup_update _ key_eqb_iff).
        destruct (key_eqb_spec ("UF2", "pdi")%string (p, m)) as [Ek|_]; [|reflexivity].
        injection Ek as <- <-. destruct (lookup key_eqb d _); [reflexivity|]. cbn. tauto.
      - rewrite L. unfold lookup2. cbn. split; [intros [X|X]; [discriminate|exact X]|auto]. }
    clearbody d'. clear L ND E d.
    destruct (violin_keys drawable d' ND') as [K1 _].
    eexists. split; [reflexivity|]. split; [exact K1|]. split.
    - intros f Hf. apply in_flat_map in Hf. destruct Hf as ([[p m] dd] & Hd & Hf).
      apply violin_figure_in in Hf. destruct Hf as (Na & _ & ->). cbn [v_problem v_metric v_drawn].
      assert (Lk : lookup key_eqb d' (p, m) = Some dd) by (apply (lookup_In _ key_eqb_iff); assumption).
      assert (L2 : forall a v, lookup String.eqb dd a = Some v <-> found stored p m a v).
      { intros a v. rewrite <- L'. unfold lookup2. rewrite Lk. reflexivity. }
      assert (EX : exists algos, In (p, algos) stored /\ drawn_metric m).
      { destruct (accepted_algos dd) as [|a acc] eqn:Ea; [congruence|].
        assert (Ha : In a (accepted_algos dd)) by (rewrite Ea; left; reflexivity).
        apply accepted_algos_in in Ha. destruct Ha as (_ & v & Hv & _). apply L2 in Hv.
        destruct Hv as (Dm & algos & rs & r & H & _). exists algos. auto. }
      destruct EX as (algos & Hp & Dm). exists algos. split; [exact Hp|]. split; [exact Dm|].
      assert (U : forall al, In (p, al) stored -> al = algos).
      { intros al H. apply (lookup_In _ string_iff) in H; [|exact N].
        apply (lookup_In _ string_iff) in Hp; [|exact N]. congruence. }
      assert (V : forall a v, lookup String.eqb dd a = Some v <->
                  exists rs r, In (a, rs) algos /\ accepted rs r /\ has_metric r m v).
      { intros a v. rewrite L2. unfold found. split.
        - intros (_ & al & rs & r & X & Y). rewrite (U al X) in Y. eauto.
        - intros (rs & r & X). split; [exact Dm|]. exists algos, rs, r. auto. }
      split; [|split].
      + destruct (accepted_algos dd); [congruence|discriminate].
      + rewrite map_map, map_id. unfold accepted_algos. rewrite order_names. apply selects_filter. intros a _.
        destruct (lookup String.eqb dd a) as [v|] eqn:Ev.
        * rewrite Bool.negb_true_iff, all_zero_iff. split.
          -- intros Z. apply V in Ev. destruct Ev as (rs & r & X & Y & W).
             exists (map prep v), rs, r, v. repeat (split; [assumption|]). apply prep_ok.
          -- intros (values & rs & r & v' & X & Y & W & Z & _).
             assert (Ev' : lookup String.eqb dd a = Some v') by (apply V; eauto).
             assert (v' = v) by congruence. subst v'. exact Z.
        * split; [discriminate|]. intros (values & rs & r & v' & X & Y & W & Z & _).
          assert (Ev' : lookup String.eqb dd a = Some v') by (apply V; eauto). congruence.
      + intros a values H. apply in_map_iff in H. destruct H as (a' & Ea & Ha). injection Ea as -> <-.
        apply accepted_algos_in in Ha. destruct Ha as (_ & v & Hv & Z). unfold data_of. rewrite Hv.
        apply V in Hv. destruct Hv as (rs & r & X & Y & W). exists rs, r, v. repeat (split; [assumption|]). apply prep_ok.
    - intros Dr p algos m a values Hp Dm Ca (rs & r & v & X & Y & W & Z & _).
      assert (Lv : lookup2 d' p m a = Some v) by (apply L'; split; [exact Dm|]; exists algos, rs, r; auto).
      unfold lookup2 in Lv. destruct (lookup key_eqb d' (p, m)) as [dd|] eqn:Ed; [|discriminate].
      eexists. split; [apply in_flat_map; exists ((p, m), dd); split|].
      + apply (lookup_In _ key_eqb_iff); assumption.
      + apply violin_figure_in. split; [|split; [apply Dr|reflexivity]].
        assert (Ha : In a (accepted_algos dd)) by (apply accepted_algos_in; split; [exact Ca|]; exists v; auto).
        intros C. rewrite C in Ha. destruct Ha.
      + auto.
  Qed.

  (** ** Curves *)

  Definition sc (c : string * string * string * Q) (data : list Q) : Q :=
    match score_of boot_size randint c data with Some s => s | None => 0 end.
  Lemma sc_ok c data : data <> [] -> score_of boot_size randint c data = Some (sc c data) /\ is_mean data (sc c data).
  Proof. intros N. unfold sc. destruct (score_some c data N) as (s & -> & M). auto. Qed.

  Notation dict := (list (key3 * list (Q * Q))).
  Notation put := (add key3_eqb (@fst key3 (Q * Q)) (@snd key3 (Q * Q))).

  Definition item_events (p a : string) (b x : Q) (items : list (string * list Q)) : list (key3 * (Q * Q)) :=
    map (fun it => ((p, a, fst it), (x, sc (p, a, fst it, b) (snd it)))) items.

  Lemma note_metrics_eq p a b x : forall items (d : dict),
    (items <> [] -> In a curve_names) -> (forall m v, In (m, v) items -> v <> []) ->
    note_metrics boot_size randint p a b x items d = Some (fold_left put (item_events p a b x items) d).
  Proof.
    induction items as [|[m v] items IH]; intros d C Ne; cbn [note_metrics item_events map fold_left]; [reflexivity|].
    destruct (sc_ok (p, a, m, b) v (Ne m v (or_introl eq_refl))) as [-> _].
    assert (Ca : In a curve_names) by (apply C; discriminate).
    rewrite order_names. assert (mem a curve_names = true) as -> by (apply mem_iff; exact Ca).
    rewrite IH; [reflexivity|intros _; exact Ca|]. intros m' v' H. apply (Ne m'). right. exact H.
  Qed.

  Section Axis.
    (** The position on the first axis. *)
    Variable xof : string -> string -> result -> Q.

    Definition events (p a : string) (rs : list result) : list (key3 * (Q * Q)) :=
      flat_map (fun r => item_events p a (r_budget r) (xof p a r) (ranked_items (r_analysis r))) rs.
    Definition all_events (stored : list (string * list (string * list result))) : list (key3 * (Q * Q)) :=
      flat_map (fun pa => flat_map (fun ar => events (fst pa) (fst ar) (snd ar)) (snd pa)) stored.

    Variable note_results : string -> string -> list result -> dict -> option dict.
    Hypothesis note_results_eq : forall p a rs d, (forall r, In r rs -> fresh r) ->
      (forall r m v, In r rs -> has_metric r m v -> drawn_metric m -> In a curve_names) ->
      note_results p a rs d = Some (fold_left put (events p a rs) d).

    (** Every algorithm with a ranked value is known. *)
    Definition known (stored : list (string * list (string * list result))) : Prop :=
      forall p algos a rs r m v, In (p, algos) stored -> In (a, rs) algos -> In r rs ->
        has_metric r m v -> drawn_metric m -> In a curve_names.

    Lemma note_algos_eq p : forall algos d,
      (forall a rs r, In (a, rs) algos -> In r rs -> fresh r) ->
      (forall a rs r m v, In (a, rs) algos -> In r rs -> has_metric r m v -> drawn_metric m -> In a curve_names) ->
      note_algos note_results p algos d
      = Some (fold_left put (flat_map (fun ar => events p (fst ar) (snd ar)) algos) d).
    Proof.
      induction algos as [|[a rs] algos IH]; intros d F C; cbn [note_algos flat_map fst snd]; [reflexivity|].
      rewrite note_results_eq; [|intros r H; apply (F a rs r); [left; reflexivity|exact H]|].
      - rewrite IH, fold_left_app; [reflexivity| |].
        + intros a' rs' r H. apply (F a'). right. exact H.
        + intros a' rs' r m v H. apply (C a' rs' r m v). right. exact H.
      - intros r m v H. apply (C a rs r m v); [left; reflexivity|exact H].
    Qed.

    Lemma note_problems_eq : forall stored d,
      (forall p algos, In (p, algos) stored -> readable algos) -> known stored ->
      note_problems note_results stored d = Some (fold_left put (all_events stored) d).
    Proof.
      induction stored as [|[p algos] stored IH]; intros d R C; cbn [note_problems]; [reflexivity|].
      rewrite note_algos_eq.
      - rewrite IH.
        + unfold all_events. cbn [flat_map fst snd]. rewrite fold_left_app. reflexivity.
        + intros p' al H. apply (R p'). right. exact H.
        + intros p' al a rs r m v H. apply (C p' al a rs r m v). right. exact H.
      - intros a rs r H. destruct (R p algos (or_introl eq_refl)) as [_ F]. apply (F a rs H).
      - intros a rs r m v H. apply (C p algos a rs r m v); [left; reflexivity|exact H].
    Qed.

    (** The points of one curve in the order of the stored results. *)
    Definition pts_of (p a : string) (rs : list result) (m : string) : list (Q * Q) :=
      under key3_eqb fst snd (events p a rs) (p, a, m).

    Lemma under_flat {A} (g : A -> list (key3 * (Q * Q))) l k :
      under key3_eqb fst snd (flat_map g l) k = flat_map (fun e => under key3_eqb fst snd (g e) k) l.
    Proof.
      unfold under. induction l as [|e l IH]; cbn [flat_map]; [reflexivity|].
      rewrite filter_app, map_app, IH. reflexivity.
    Qed.
    Lemma under_none l k : (forall e, In e l -> fst e <> k) -> under key3_eqb (@fst key3 (Q * Q)) snd l k = [].
    Proof.
      unfold under. induction l as [|e l IH]; cbn [filter]; intros H; [reflexivity|].
      destruct (eqb_spec key3_eqb key3_iff (fst e) k) as [E|N].
      - exfalso. apply (H e); [left; reflexivity|exact E].
      - apply IH. intros e' He'. apply H. right. exact He'.
    Qed.
    Lemma flat_map_one {A B C} (h : A * B -> list C) l a b : NoDup (map fst l) -> In (a, b) l ->
      (forall a' b', a' <> a -> h (a', b') = []) -> flat_map h l = h (a, b).
    Proof.
      induction l as [|[a0 b0] l IH]; cbn [flat_map map fst In]; intros N H Z; [destruct H|].
      inversion N as [|? ? N1 N2]; subst. destruct H as [H|H].
      - injection H as -> ->. rewrite <- (app_nil_r (h (a, b))) at 2. f_equal.
        assert (forall l', ~ In a (map fst l') -> flat_map h l' = []) as G.
        { induction l' as [|[a1 b1] l' IH']; cbn [flat_map map fst In]; intros X; [reflexivity|].
          rewrite Z, IH'; [reflexivity|tauto|]. intros ->. tauto. }
        apply G. exact N1.
      - rewrite (IH N2 H Z). rewrite Z; [reflexivity|]. intros ->. apply N1.
        apply in_map_iff. exists (a, b). auto.
    Qed.
    Lemma flat_map_none {A B C} (h : A * B -> list C) l a : ~ In a (map fst l) ->
      (forall a' b', a' <> a -> h (a', b') = []) -> flat_map h l = [].
    Proof.
      induction l as [|[a1 b1] l IH]; cbn [flat_map map fst In]; intros X Z; [reflexivity|].
      rewrite Z, IH; [reflexivity|tauto|exact Z|]. intros ->. tauto.
    Qed.

    Lemma events_key p a rs e : In e (events p a rs) -> fst (fst e) = (p, a).
    Proof.
      unfold events, item_events. intros H. apply in_flat_map in H. destruct H as (r & _ & H).
      apply in_map_iff in H. destruct H as (it & <- & _). reflexivity.
    Qed.

    Lemma under_all stored p algos a rs m : NoDup (map fst stored) -> NoDup (map fst algos) ->
      In (p, algos) stored -> In (a, rs) algos ->
      under key3_eqb fst snd (all_events stored) (p, a, m) = pts_of p a rs m.
    Proof.
      intros N N' Hp Ha. unfold all_events. rewrite under_flat.
      rewrite (flat_map_one _ stored p algos N Hp).
      - cbn [fst snd]. rewrite under_flat. rewrite (flat_map_one _ algos a rs N' Ha).
        + reflexivity.
        + intros a' rs' Ne. apply under_none. intros e He E. apply events_key in He. cbn [fst snd] in He.
          rewrite E in He. cbn in He. congruence.
      - intros p' al Ne. apply under_none. cbn [fst snd]. intros e He E. apply in_flat_map in He.
        destruct He as (ar & _ & He). apply events_key in He. rewrite E in He. cbn in He. congruence.
    Qed.

    Lemma under_absent stored p a m :
      (forall algos rs, In (p, algos) stored -> ~ In (a, rs) algos) ->
      under key3_eqb fst snd (all_events stored) (p, a, m) = [].
    Proof.
      intros H. apply under_none. intros e He E. unfold all_events in He. apply in_flat_map in He.
      destruct He as ([p' al] & Hp & He). apply in_flat_map in He. destruct He as ([a' rs] & Ha & He).
      apply events_key in He. rewrite E in He. cbn in He. injection He as <- <-. apply (H al rs Hp Ha).
    Qed.

    Lemma named_one (items : list (string * list Q)) m : NoDup (map fst items) ->
      (filter (fun it => String.eqb (fst it) m) items = [] /\ forall v, ~ In (m, v) items)
      \/ exists v, filter (fun it => String.eqb (fst it) m) items = [(m, v)] /\ In (m, v) items.
    Proof.
      induction items as [|[m0 v0] items IH]; cbn [filter map fst In]; intros N; [left; split; [reflexivity|auto]|].
      inversion N as [|? ? N1 N2]; subst. specialize (IH N2).
      destruct (String.eqb_spec m0 m) as [->|Ne].
      - right. exists v0. split; [|auto]. f_equal. destruct IH as [[-> _]|(v & _ & H)]; [reflexivity|].
        exfalso. apply N1. apply in_map_iff. exists (m, v). auto.
      - destruct IH as [[E H]|(v & E & H)].
        + left. split; [exact E|]. intros v [X|X]; [congruence|apply (H v X)].
        + right. exists v. auto.
    Qed.

    Lemma pts_of_cons p a r rs m : pts_of p a (r :: rs) m
      = map (fun it => (xof p a r, sc (p, a, fst it, r_budget r) (snd it)))
            (filter (fun it => String.eqb (fst it) m) (ranked_items (r_analysis r))) ++ pts_of p a rs m.
    Proof.
      unfold pts_of, events. cbn [flat_map]. unfold under at 1. rewrite filter_app, map_app. f_equal.
      unfold item_events. induction (ranked_items (r_analysis r)) as [|[m0 v0] l IH]; cbn [map filter fst snd]; [reflexivity|].
      destruct (eqb_spec key3_eqb key3_iff (p, a, m0) (p, a, m)) as [E|Ne].
      - injection E as ->. rewrite String.eqb_refl. cbn [map fst snd]. rewrite IH. reflexivity.
      - destruct (String.eqb_spec m0 m) as [->|_]; [congruence|]. exact IH.
    Qed.

    Lemma pts_ok p a m : drawn_metric m -> forall rs, (forall r, In r rs -> fresh r) ->
      exists having, selects (fun r => exists d, has_metric r m d) rs having
        /\ Forall2 (fun r q => fst q = xof p a r /\ exists d, has_metric r m d /\ is_mean d (snd q))
                   having (pts_of p a rs m).
    Proof.
      intros Dm. induction rs as [|r rs IH]; intros F.
      - exists []. split; constructor.
      - destruct IH as (having & S & H); [intros r' Hr; apply F; right; exact Hr|].
        pose proof (F r (or_introl eq_refl)) as (_ & ND & NE).
        rewrite pts_of_cons.
        destruct (named_one (ranked_items (r_analysis r)) m) as [[E X]|(v & E & X)].
        { apply filter_keys_nodup. exact ND. }
        + rewrite E. cbn [map app]. exists having. split; [|exact H]. apply sel_drop; [|exact S].
          intros (d & Hd). apply (X d). apply ranked_items_in. auto.
        + rewrite E. cbn [map app fst snd]. apply ranked_items_in in X. destruct X as [X _].
          exists (r :: having). split; [apply sel_keep; [exists v; exact X|exact S]|].
          constructor; [|exact H]. split; [reflexivity|]. exists v. split; [exact X|].
          apply sc_ok. apply (NE m v X).
    Qed.

    Lemma pts_undrawn p a m : ~ drawn_metric m -> forall rs, pts_of p a rs m = [].
    Proof.
      intros Dm. induction rs as [|r rs IH]; [reflexivity|]. rewrite pts_of_cons, IH, app_nil_r.
      assert (filter (fun it => String.eqb (fst it) m) (ranked_items (r_analysis r)) = []) as ->; [|reflexivity].
      destruct (filter _ _) as [|[m0 v0] l] eqn:E; [reflexivity|].
      assert (H : In (m0, v0) (filter (fun it => String.eqb (fst it) m) (ranked_items (r_analysis r))))
        by (rewrite E; left; reflexivity).
      apply filter_In in H. destruct H as [H X]. apply String.eqb_eq in X. cbn in X. subst m0.
      apply ranked_items_in in H. exfalso. apply Dm, H.
    Qed.

    (** The dictionary of all curves. *)
    Definition curves_dict (stored : list (string * list (string * list result))) : dict :=
      fold_left put (all_events stored) [].

    Lemma curves_nodup stored : NoDup (map fst (curves_dict stored)).
    Proof. apply (group_nodup _ key3_iff). constructor. Qed.

    Lemma curves_lookup stored p a m line : NoDup (map fst stored) ->
      (forall p algos, In (p, algos) stored -> readable algos) ->
      (lookup key3_eqb (curves_dict stored) (p, a, m) = Some line <->
       line <> [] /\ drawn_metric m /\ exists algos rs, In (p, algos) stored /\ In (a, rs) algos /\ line = pts_of p a rs m).
    Proof.
      intros N R. unfold curves_dict. rewrite (group_new _ key3_iff). split.
      - intros [E NE]. split; [exact NE|].
        destruct (lookup String.eqb stored p) as [algos|] eqn:Ep.
        2:{ exfalso. apply NE. rewrite <- E. apply under_absent. intros al rs Hp. exfalso.
            apply lookup_none in Ep; [|exact string_iff]. apply Ep. apply in_map_iff. exists (p, al). auto. }
        apply (lookup_In _ string_iff) in Ep; [|exact N].
        destruct (R p algos Ep) as [N' _].
        destruct (lookup String.eqb algos a) as [rs|] eqn:Ea.
        2:{ exfalso. apply NE. rewrite <- E. apply under_absent. intros al rs Hp Ha.
            assert (al = algos) as ->.
            { apply (lookup_In _ string_iff) in Hp; [|exact N]. apply (lookup_In _ string_iff) in Ep; [|exact N]. congruence. }
            apply lookup_none in Ea; [|exact string_iff]. apply Ea. apply in_map_iff. exists (a, rs). auto. }
        apply (lookup_In _ string_iff) in Ea; [|exact N'].
        rewrite (under_all stored p algos a rs m N N' Ep Ea) in E. subst line. split.
        + destruct (best_func m) eqn:B; [apply drawn_iff; congruence|]. exfalso. apply NE. apply pts_undrawn.
          rewrite drawn_iff. congruence.
        + exists algos, rs. auto.
      - intros (NE & Dm & algos & rs & Hp & Ha & ->). split; [|exact NE].
        destruct (R p algos Hp) as [N' _]. apply (under_all stored p algos a rs m N N' Hp Ha).
    Qed.
  End Axis.

  Lemma ranked_nonempty r : fresh r -> forall m v, In (m, v) (ranked_items (r_analysis r)) -> v <> [].
  Proof. intros (_ & _ & NE) m v H. apply ranked_items_in in H. apply (NE m v), H. Qed.

  Lemma note_times_eq p a : forall rs d, (forall r, In r rs -> fresh r) ->
    (forall r m v, In r rs -> has_metric r m v -> drawn_metric m -> In a curve_names) ->
    note_times boot_size randint p a rs d
    = Some (fold_left put (events (fun _ _ r => r_budget r) p a rs) d).
  Proof.
    induction rs as [|r rs IH]; intros d F C; cbn [note_times]; [reflexivity|].
    rewrite note_metrics_eq.
    - rewrite IH.
      + unfold events. cbn [flat_map]. rewrite fold_left_app. reflexivity.
      + intros r' H. apply F. right. exact H.
      + intros r' m v H. apply (C r'). right. exact H.
    - intros NE. destruct (ranked_items (r_analysis r)) as [|[m v] l] eqn:E; [congruence|].
      assert (H : In (m, v) (ranked_items (r_analysis r))) by (rewrite E; left; reflexivity).
      apply ranked_items_in in H. apply (C r m v); [left; reflexivity|apply H|apply H].
    - apply ranked_nonempty. apply F. left. reflexivity.
  Qed.

  (** The mean cost. *)
  Definition cost_of (p a : string) (r : result) : Q :=
    match r_analysis r with
    | [] => 0
    | (_, costs) :: _ => sc (p, a, "cost"%string, r_budget r) costs
    end.

  Lemma note_budgets_eq p a : forall rs d, (forall r, In r rs -> fresh r) ->
    (forall r m v, In r rs -> has_metric r m v -> drawn_metric m -> In a curve_names) ->
    note_budgets boot_size randint p a rs d = Some (fold_left put (events cost_of p a rs) d).
  Proof.
    induction rs as [|r rs IH]; intros d F C; cbn [note_budgets]; [reflexivity|].
    pose proof (F r (or_introl eq_refl)) as Fr. pose proof Fr as ((costs & rest & E) & _ & NE).
    rewrite E. destruct (sc_ok (p, a, "cost"%string, r_budget r) costs) as [-> _].
    { apply (NE "cost"%string). rewrite E. left. reflexivity. }
    assert (ER : ranked_items rest = ranked_items (r_analysis r)) by (rewrite E; reflexivity).
    rewrite ER, note_metrics_eq.
    - rewrite IH.
      + unfold events. cbn [flat_map]. rewrite fold_left_app.
        assert (cost_of p a r = sc (p, a, "cost"%string, r_budget r) costs) as -> by (unfold cost_of; rewrite E; reflexivity).
        reflexivity.
      + intros r' H. apply F. right. exact H.
      + intros r' m v H. apply (C r'). right. exact H.
    - intros NE'. destruct (ranked_items (r_analysis r)) as [|[m v] l] eqn:E'; [congruence|].
      assert (H : In (m, v) (ranked_items (r_analysis r))) by (rewrite E'; left; reflexivity).
      apply ranked_items_in in H. apply (C r m v); [left; reflexivity|apply H|apply H].
    - apply ranked_nonempty. exact Fr.
  Qed.

  Lemma unknown_fails p a b x m v : forall items d, In (m, v) items -> ~ In a curve_names ->
    note_metrics boot_size randint p a b x items d = None.
  Proof.
    intros items d H Ca. destruct items as [|[m0 v0] items]; [destruct H|]. cbn [note_metrics].
    destruct (score_of _ _ _ _); [|reflexivity]. rewrite order_names.
    destruct (mem a curve_names) eqn:E; [|reflexivity]. apply mem_iff in E. contradiction.
  Qed.

  Lemma unknown_times p a m v : forall rs r d, In r rs -> has_metric r m v -> drawn_metric m ->
    ~ In a curve_names -> note_times boot_size randint p a rs d = None.
  Proof.
    induction rs as [|r0 rs IH]; intros r d H Hm Dm Ca; [destruct H|]. cbn [note_times].
    destruct H as [->|H].
    - rewrite (unknown_fails p a _ _ m v); [reflexivity| |exact Ca]. apply ranked_items_in. auto.
    - destruct (note_metrics _ _ _ _ _ _ _ _); [|reflexivity]. apply (IH r); auto.
  Qed.
  Lemma unknown_algos p a m v rs r : forall algos d, In (a, rs) algos -> In r rs -> has_metric r m v -> drawn_metric m ->
    ~ In a curve_names -> note_algos (note_times boot_size randint) p algos d = None.
  Proof.
    induction algos as [|[a0 rs0] algos IH]; intros d H Hr Hm Dm Ca; [destruct H|]. cbn [note_algos].
    destruct H as [E|H].
    - injection E as -> ->. rewrite (unknown_times p a m v rs r); auto.
    - destruct (note_times _ _ _ _ _ _); [|reflexivity]. apply IH; auto.
  Qed.
  Lemma unknown_problems a m v rs r p algos : forall stored d, In (p, algos) stored -> In (a, rs) algos -> In r rs ->
    has_metric r m v -> drawn_metric m ->
    ~ In a curve_names -> note_problems (note_times boot_size randint) stored d = None.
  Proof.
    induction stored as [|[p0 algos0] stored IH]; intros d H Ha Hr Hm Dm Ca; [destruct H|]. cbn [note_problems].
    destruct H as [E|H].
    - injection E as -> ->. rewrite (unknown_algos p a m v rs r); auto.
    - destruct (note_algos _ _ _ _); [|reflexivity]. apply IH; auto.
  Qed.
End Reading.

Lemma sort_id {A} (le : A -> A -> bool) l : StronglySorted (fun a b => le a b = true) l -> stable_sort le l = l.
Proof.
  induction 1 as [|x l S IH F]; cbn [stable_sort fold_right]; [reflexivity|].
  change (fold_right (insert_by le) [] l) with (stable_sort le l). rewrite IH.
  destruct l as [|y l]; [reflexivity|]. cbn [insert_by]. inversion F as [|? ? Hy _]; subst. rewrite Hy. reflexivity.
Qed.

(** ** The pictures of curves *)

Definition fig_key (e : key3 * list (Q * Q)) : key := (fst (fst (fst e)), snd (fst e)).
Definition fig_line (e : key3 * list (Q * Q)) : string * list (Q * Q) :=
  (snd (fst (fst e)), stable_sort x_leb (snd e)).

Lemma file_curve_eq d e : file_curve d e = add key_eqb fig_key fig_line d e.
Proof. destruct e as [[[p a] m] v]. reflexivity. Qed.

Lemma file_curves_eq es : forall d, fold_left file_curve es d = fold_left (add key_eqb fig_key fig_line) es d.
Proof. induction es as [|e es IH]; intros d; cbn [fold_left]; [reflexivity|]. rewrite file_curve_eq. apply IH. Qed.

Lemma draw_lines_in L a line : NoDup (map fst L) ->
  (In (a, line) (draw_lines L) <-> In a curve_names /\ In (a, line) L).
Proof.
  intros N. unfold draw_lines. rewrite in_flat_map, order_names.
  assert (N' : NoDup (map fst (rev L))) by (rewrite map_rev; apply NoDup_rev; exact N).
  assert (H : forall a' l, lookup String.eqb (rev L) a' = Some l <-> In (a', l) L).
  { intros a' l. rewrite <- (lookup_In _ string_iff); [|exact N']. symmetry. apply in_rev. }
  split.
  - intros (a' & Ha & X). destruct (lookup String.eqb (rev L) a') as [l|] eqn:E; [|destruct X].
    destruct X as [X|[]]. injection X as -> ->. split; [exact Ha|]. apply H. exact E.
  - intros [Ha X]. exists a. split; [exact Ha|]. apply H in X. rewrite X. left. reflexivity.
Qed.
Lemma draw_lines_names L : NoDup (map fst L) ->
  selects (fun a => exists line, In (a, line) L) curve_names (map fst (draw_lines L)).
Proof.
  intros N. unfold draw_lines. rewrite order_names.
  assert (N' : NoDup (map fst (rev L))) by (rewrite map_rev; apply NoDup_rev; exact N).
  assert (H : forall a' l, lookup String.eqb (rev L) a' = Some l <-> In (a', l) L).
  { intros a' l. rewrite <- (lookup_In _ string_iff); [|exact N']. symmetry. apply in_rev. }
  induction curve_names as [|a names IH]; cbn [flat_map map]; [constructor|].
  destruct (lookup String.eqb (rev L) a) as [l|] eqn:E; cbn [app map fst].
  - apply sel_keep; [exists l; apply H; exact E|exact IH].
  - apply sel_drop; [|exact IH]. intros (l & X). apply H in X. congruence.
Qed.

Lemma plot_results_ok d range : NoDup (map fst d) ->
  NoDup (map (fun f => (c_problem f, c_metric f)) (plot_results d range))
  /\ (forall f, In f (plot_results d range) ->
        c_range f = range
        /\ (exists a values, lookup key3_eqb d (c_problem f, a, c_metric f) = Some values)
        /\ selects (fun a => exists values, lookup key3_eqb d (c_problem f, a, c_metric f) = Some values)
                   curve_names (map fst (c_lines f))
        /\ forall a line, In (a, line) (c_lines f) <->
             In a curve_names /\ exists values, lookup key3_eqb d (c_problem f, a, c_metric f) = Some values
                                               /\ line = stable_sort x_leb values)
  /\ (forall p a m values, lookup key3_eqb d (p, a, m) = Some values ->
        exists f, In f (plot_results d range) /\ c_problem f = p /\ c_metric f = m).
Proof.
  intros N. unfold plot_results. rewrite file_curves_eq. set (D := fold_left (add key_eqb fig_key fig_line) d []).
  assert (ND : NoDup (map fst D)) by (apply (group_nodup _ key_eqb_iff); constructor).
  assert (G : forall k L, In (k, L) D <-> under key_eqb fig_key fig_line d k = L /\ L <> []).
  { intros k L. rewrite (lookup_In _ key_eqb_iff _ _ _ ND). apply (group_new _ key_eqb_iff). }
  assert (U : forall p m a line, In (a, line) (under key_eqb fig_key fig_line d (p, m)) <->
              exists values, lookup key3_eqb d (p, a, m) = Some values /\ line = stable_sort x_leb values).
  { intros p m a line. unfold under. rewrite in_map_iff. split.
    - intros ([[[p' a'] m'] v] & E & H). apply filter_In in H. destruct H as [H K].
      apply key_eqb_iff in K. unfold fig_key in K. cbn in K. injection K as -> ->.
      unfold fig_line in E. cbn in E. injection E as -> <-. exists v. split; [|reflexivity].
      apply (lookup_In _ key3_iff); assumption.
    - intros (v & H & ->). apply (lookup_In _ key3_iff) in H; [|exact N].
      exists ((p, a, m), v). split; [reflexivity|]. apply filter_In. split; [exact H|].
      apply key_eqb_iff. reflexivity. }
  assert (NU : forall p m, NoDup (map fst (under key_eqb fig_key fig_line d (p, m)))).
  { intros p m. unfold under. rewrite map_map. clear - N.
    induction d as [|e d IH]; cbn [filter map]; [constructor|].
    cbn [map fst] in N. inversion N as [|? ? N1 N2]; subst.
    destruct (key_eqb (fig_key e) (p, m)) eqn:K; [|apply IH; exact N2].
    apply key_eqb_iff in K. cbn [map]. constructor; [|apply IH; exact N2]. intros X. apply in_map_iff in X.
    destruct X as (e' & E & H). apply filter_In in H. destruct H as [H K'].
    apply key_eqb_iff in K'. apply N1.
    assert (fst e = fst e') as ->; [|apply in_map; exact H].
    destruct e as [[[p1 a1] m1] v1], e' as [[[p2 a2] m2] v2]. unfold fig_key, fig_line in *. cbn in *. congruence. }
  split; [|split].
  - rewrite map_map. erewrite map_ext; [exact ND|]. intros [[p m] L]. reflexivity.
  - intros f H. apply in_map_iff in H. destruct H as ([[p m] L] & <- & H). cbn [c_range c_problem c_metric c_lines].
    apply G in H. destruct H as [<- NE]. split; [reflexivity|]. split; [|split].
    + destruct (under key_eqb fig_key fig_line d (p, m)) as [|[a line] L] eqn:E; [congruence|].
      destruct (proj1 (U p m a line)) as (v & Hv & _); [rewrite E; left; reflexivity|]. exists a, v. exact Hv.
    + pose proof (draw_lines_names _ (NU p m)) as S. revert S. generalize curve_names as names.
      intros names S. induction S as [|a l l' H S IH|a l l' H S IH]; [constructor| |].
      * apply sel_keep; [|exact IH]. destruct H as (line & H). apply U in H. destruct H as (v & H & _). eauto.
      * apply sel_drop; [|exact IH]. intros (v & X). apply H. eexists. apply U. exists v. split; [exact X|reflexivity].
    + intros a line. rewrite (draw_lines_in _ _ _ (NU p m)), U. reflexivity.
  - intros p a m v H.
    assert (In (a, stable_sort x_leb v) (under key_eqb fig_key fig_line d (p, m))) as X by (apply U; eauto).
    eexists. split; [apply in_map_iff; exists ((p, m), under key_eqb fig_key fig_line d (p, m)); split; [reflexivity|]|].
    + apply G. split; [reflexivity|]. intros C. rewrite C in X. destruct X.
    + auto.
Qed.

Lemma selects_det {A} (P : A -> Prop) l : forall s s', selects P l s -> selects P l s' -> s = s'.
Proof.
  induction l as [|x l IH]; intros s s' S S'; inversion S; subst; inversion S'; subst; try reflexivity; try contradiction.
  - f_equal. apply IH; assumption.
  - apply IH; assumption.
Qed.
Lemma selects_ext {A} (P P' : A -> Prop) l s : (forall x, In x l -> (P x <-> P' x)) -> selects P l s -> selects P' l s.
Proof.
  intros H S. induction S as [|x l s Px S IH|x l s Px S IH]; [constructor|apply sel_keep|apply sel_drop].
  - apply H; [left; reflexivity|exact Px].
  - apply IH. intros y Hy. apply H. right. exact Hy.
  - intros X. apply Px. apply H; [left; reflexivity|exact X].
  - apply IH. intros y Hy. apply H. right. exact Hy.
Qed.

Section Pictures.
  Variables (boot_size : nat) (randint : string * string * string * Q -> nat -> nat -> nat -> nat).
  Hypothesis boot_pos : (1 <= boot_size)%nat.
  Hypothesis draws : forall c, fair (randint c).
  Variable stored : list (string * list (string * list result)).
  Hypothesis T : tidy stored.

  Notation pts := (pts_of boot_size randint).

  Lemma stored_fresh p algos a rs r : In (p, algos) stored -> In (a, rs) algos -> In r rs -> fresh r.
  Proof. intros Hp Ha Hr. destruct (tidy_readable stored p algos T Hp) as [_ F]. apply (F a rs Ha), Hr. Qed.

  Lemma unique_algos p al al' : In (p, al) stored -> In (p, al') stored -> al = al'.
  Proof.
    intros H H'. destruct T as [N _]. apply (lookup_In _ string_iff) in H; [|exact N].
    apply (lookup_In _ string_iff) in H'; [|exact N]. congruence.
  Qed.
  Lemma unique_results p al a rs rs' : In (p, al) stored -> In (a, rs) al -> In (a, rs') al -> rs = rs'.
  Proof.
    intros H X X'. destruct (tidy_readable stored p al T H) as [N _].
    apply (lookup_In _ string_iff) in X; [|exact N]. apply (lookup_In _ string_iff) in X'; [|exact N]. congruence.
  Qed.

  (** The times. *)
  Definition time (_ _ : string) (r : result) : Q := r_budget r.

  Lemma pts_time_curve p algos a rs m : In (p, algos) stored -> In (a, rs) algos -> drawn_metric m ->
    pts time p a rs m <> [] -> curve rs m (pts time p a rs m).
  Proof.
    intros Hp Ha Dm NE. split; [exact NE|].
    destruct (pts_ok boot_size randint boot_pos draws time p a m Dm rs) as (having & S & F).
    { intros r Hr. apply (stored_fresh p algos a rs r Hp Ha Hr). }
    exists having. split; [exact S|exact F].
  Qed.
  Lemma curve_pts xof p algos a rs m having (line : list (Q * Q)) : In (p, algos) stored -> In (a, rs) algos -> drawn_metric m ->
    selects (fun r => exists d, has_metric r m d) rs having -> length having = length line -> line <> [] ->
    pts xof p a rs m <> [].
  Proof.
    intros Hp Ha Dm S L NE.
    destruct (pts_ok boot_size randint boot_pos draws xof p a m Dm rs) as (having' & S' & F).
    { intros r Hr. apply (stored_fresh p algos a rs r Hp Ha Hr). }
    rewrite (selects_det _ _ _ _ S' S) in F. apply Forall2_length' in F. rewrite L in F.
    destruct line; [congruence|]. destruct (pts xof p a rs m); [discriminate|discriminate].
  Qed.

  Lemma selects_sorted {A} (R : A -> A -> Prop) (P : A -> Prop) l s : selects P l s -> StronglySorted R l -> StronglySorted R s.
  Proof.
    intros S. induction S as [|x l s Px S IH|x l s Px S IH]; intros H; [constructor| |];
      inversion H as [|? ? H1 H2]; subst.
    - constructor; [auto|]. rewrite Forall_forall in *. intros y Hy. apply H2.
      apply (selects_in P l s y S) in Hy. apply Hy.
    - auto.
  Qed.

  Lemma time_sorted rs m line : chronological rs -> curve rs m line -> stable_sort x_leb line = line.
  Proof.
    intros C (_ & having & S & F). apply sort_id. pose proof (selects_sorted _ _ _ _ S C) as H.
    clear S C. induction F as [|r q having line [E _] F IH]; [constructor|].
    inversion H as [|? ? H1 H2]; subst. constructor; [auto|]. apply Forall_forall. intros q' Hq.
    unfold x_leb. apply Qle_bool_iff. rewrite E.
    clear - F Hq H2. induction F as [|r' q1 having line [E' _] F IH]; [destruct Hq|].
    inversion H2 as [|? ? X1 X2]; subst. destruct Hq as [<-|Hq]; [rewrite E'; lra|auto].
  Qed.

  Lemma max_first_ok values : values <> [] -> exists t y, max_first values = Some t /\ In (t, y) values
    /\ forall x z, In (x, z) values -> x <= t.
  Proof.
    destruct values as [|[x0 y0] l]; [congruence|]. intros _. cbn [max_first fst].
    assert (forall (l : list (Q * Q)) (x y : Q), exists t z : Q, fold_left (fun m w => qmax m (fst w)) l x = t
              /\ (t = x \/ In (t, z) l) /\ x <= t /\ forall u v, In (u, v) l -> u <= t) as H.
    { clear. induction l as [|[x1 y1] l IH]; intros x y; cbn [fold_left].
      - exists x, y. split; [reflexivity|]. split; [auto|]. split; [lra|]. intros u v [].
      - destruct (IH (qmax x (fst (x1, y1))) y) as (t & z & E & I & L & M). cbn [fst] in *.
        assert (x <= qmax x x1 /\ x1 <= qmax x x1 /\ (qmax x x1 = x \/ qmax x x1 = x1)) as (Q1 & Q2 & Q3).
        { unfold qmax. destruct (Qle_bool x x1) eqn:B.
          - apply Qle_bool_iff in B. split; [lra|]. split; [lra|auto].
          - apply Qle_bool_false in B. split; [lra|]. split; [lra|auto]. }
        destruct I as [I|I].
        + destruct Q3 as [Q3|Q3].
          * exists t, z. split; [exact E|]. split; [left; congruence|]. split; [lra|].
            intros u v [X|X]; [injection X as <- <-; lra|apply (M u v X)].
          * exists t, y1. split; [exact E|]. split; [right; left; congruence|]. split; [lra|].
            intros u v [X|X]; [injection X as <- <-; lra|apply (M u v X)].
        + exists t, z. split; [exact E|]. split; [right; right; exact I|]. split; [lra|].
          intros u v [X|X]; [injection X as <- <-; lra|apply (M u v X)]. }
    destruct (H l x0 y0) as (t & z & E & I & L & M). rewrite E.
    destruct I as [->|I].
    - exists x0, y0. split; [reflexivity|]. split; [left; reflexivity|]. intros x v [X|X]; [injection X as <- <-; lra|eauto].
    - exists t, z. split; [reflexivity|]. split; [right; exact I|]. intros x v [X|X]; [injection X as <- <-; lra|eauto].
  Qed.

  Lemma pictures_time_ok : known stored ->
    (forall p algos a rs, In (p, algos) stored -> In (a, rs) algos -> chronological rs) ->
    (exists p algos a rs m line, In (p, algos) stored /\ In (a, rs) algos /\ drawn_metric m /\ curve rs m line) ->
    exists figs last, pictures_time boot_size randint stored = Some figs
      /\ NoDup (map (fun f => (c_problem f, c_metric f)) figs)
      /\ (forall f, In f figs -> exists algos, In (c_problem f, algos) stored /\ drawn_metric (c_metric f)
            /\ c_lines f <> []
            /\ c_range f = (0, last)
            /\ selects (fun a => exists rs line, In (a, rs) algos /\ curve rs (c_metric f) line)
                       curve_names (map fst (c_lines f))
            /\ forall a line, In (a, line) (c_lines f) -> exists rs, In (a, rs) algos /\ curve rs (c_metric f) line)
      /\ (forall p algos a rs m line, In (p, algos) stored -> In (a, rs) algos -> drawn_metric m ->
            curve rs m line -> exists f, In f figs /\ c_problem f = p /\ c_metric f = m)
      /\ (exists p algos a rs m line y, In (p, algos) stored /\ In (a, rs) algos /\ drawn_metric m
            /\ curve rs m line /\ In (last, y) line /\ forall x z, In (x, z) line -> x <= last).
  Proof.
    intros K C (p0 & al0 & a0 & rs0 & m0 & line0 & X1 & X2 & X3 & X4).
    pose proof T as [N _]. pose proof (fun p al => tidy_readable stored p al T) as R.
    unfold pictures_time.
    rewrite (note_problems_eq boot_size randint time _ (note_times_eq boot_size randint boot_pos draws) stored [] R K).
    fold (curves_dict boot_size randint time stored). set (d := curves_dict boot_size randint time stored).
    assert (L : forall p a m line, lookup key3_eqb d (p, a, m) = Some line <->
       line <> [] /\ drawn_metric m /\ exists algos rs, In (p, algos) stored /\ In (a, rs) algos /\ line = pts time p a rs m).
    { intros. apply curves_lookup; assumption. }
    assert (ND : NoDup (map fst d)) by apply (curves_nodup boot_size randint time).
    assert (G : forall p algos a rs m line, In (p, algos) stored -> In (a, rs) algos -> drawn_metric m ->
              curve rs m line -> lookup key3_eqb d (p, a, m) = Some (pts time p a rs m)).
    { intros p algos a rs m line H1 H2 H3 (H4 & having & S & F). apply L. split; [|split; [exact H3|eauto]].
      apply (curve_pts time p algos a rs m having line H1 H2 H3 S); [|exact H4]. apply Forall2_length' in F. exact F. }
    clearbody d. destruct d as [|[k values] d'].
    { specialize (G _ _ _ _ _ _ X1 X2 X3 X4). discriminate. }
    destruct k as [[pk ak] mk].
    assert (Lk : lookup key3_eqb (((pk, ak, mk), values) :: d') (pk, ak, mk) = Some values).
    { cbn [lookup]. rewrite (eqb_refl key3_eqb key3_iff). reflexivity. }
    pose proof (proj1 (L _ _ _ _) Lk) as (NEk & Dk & alk & rsk & K1 & K2 & K3).
    destruct (max_first_ok values NEk) as (t & y & Et & It & Mt). rewrite Et.
    destruct (plot_results_ok _ (0, t) ND) as (P1 & P2 & P3).
    eexists. exists t. split; [reflexivity|]. split; [exact P1|]. split; [|split].
    - intros f Hf. destruct (P2 f Hf) as (Er & (a & v & Hv) & S & Ln).
      pose proof (proj1 (L _ _ _ _) Hv) as (NEv & Dm & algos & rs & Y1 & Y2 & Y3).
      exists algos. split; [exact Y1|]. split; [exact Dm|].
      assert (Q1 : forall a' line, In (a', line) (c_lines f) -> exists rs', In (a', rs') algos /\ curve rs' (c_metric f) line).
      { intros a' line H. apply Ln in H. destruct H as (_ & v' & Hv' & ->).
        apply L in Hv'. destruct Hv' as (NE' & _ & al' & rs' & Z1 & Z2 & Z3).
        rewrite (unique_algos _ _ _ Z1 Y1) in Z2. exists rs'. split; [exact Z2|]. subst v'.
        pose proof (pts_time_curve _ _ _ _ _ Y1 Z2 Dm NE') as CU.
        rewrite (time_sorted rs' _ _ (C _ _ _ _ Y1 Z2) CU). exact CU. }
      split; [|split; [exact Er|split; [|exact Q1]]].
      + assert (Ca : In a curve_names).
        { subst v. pose proof (pts_time_curve _ _ _ _ _ Y1 Y2 Dm NEv) as (NEl & having & Sh & F).
          destruct F as [|r q having line Fr F]; [congruence|].
          assert (Hr : In r rs) by (apply (selects_in _ _ _ r Sh); left; reflexivity).
          destruct Fr as (_ & dd & Hd & _). apply (K _ _ _ _ _ _ _ Y1 Y2 Hr Hd Dm). }
        intros E. assert (In (a, stable_sort x_leb v) (c_lines f)) as H by (apply Ln; split; [exact Ca|eauto]).
        rewrite E in H. destruct H.
      + refine (selects_ext _ _ _ _ _ S). intros a' _. split.
        * intros (v' & Hv'). apply L in Hv'. destruct Hv' as (NE' & _ & al' & rs' & Z1 & Z2 & Z3).
          rewrite (unique_algos _ _ _ Z1 Y1) in Z2. exists rs', (pts time (c_problem f) a' rs' (c_metric f)).
          split; [exact Z2|]. apply (pts_time_curve _ _ _ _ _ Y1 Z2 Dm). congruence.
        * intros (rs' & line & Z1 & Z2). eexists. apply (G _ _ _ _ _ _ Y1 Z1 Dm Z2).
    - intros p algos a rs m line Y1 Y2 Y3 Y4. apply (P3 p a m _ (G _ _ _ _ _ _ Y1 Y2 Y3 Y4)).
    - exists pk, alk, ak, rsk, mk, values, y. split; [exact K1|]. split; [exact K2|]. split; [exact Dk|].
      split; [|auto]. rewrite K3. apply (pts_time_curve _ _ _ _ _ K1 K2 Dk). congruence.
  Qed.

  Lemma cost_of_mean p a r : fresh r -> exists c, has_metric r "cost" c /\ is_mean c (cost_of boot_size randint p a r).
  Proof.
    intros ((costs & rest & E) & _ & NE). exists costs. unfold has_metric, cost_of. rewrite E.
    split; [left; reflexivity|]. apply (sc_ok boot_size randint boot_pos draws). apply (NE "cost"%string).
    rewrite E. left. reflexivity.
  Qed.

  Lemma pts_cost_curve p algos a rs m : In (p, algos) stored -> In (a, rs) algos -> drawn_metric m ->
    pts (cost_of boot_size randint) p a rs m <> [] ->
    cost_curve rs m (stable_sort x_leb (pts (cost_of boot_size randint) p a rs m)).
  Proof.
    intros Hp Ha Dm NE. set (l := pts (cost_of boot_size randint) p a rs m) in *.
    split; [|split].
    - intros E. apply NE. apply length_zero_iff_nil. rewrite <- (stable_sort_length x_leb), E. reflexivity.
    - assert (S : StronglySorted (fun x y => x_leb x y = true) (stable_sort x_leb l)).
      { apply stable_sort_sorted with (D := fun _ => True).
        - intros x y _ _. unfold x_leb. rewrite Qle_bool_false, Qle_bool_iff. lra.
        - intros x y z _ _ _. unfold x_leb. rewrite !Qle_bool_iff. lra.
        - apply Forall_forall. auto. }
      clear - S. induction S as [|x l' S IH F]; constructor; [exact IH|].
      rewrite Forall_forall in *. intros y Hy. apply Qle_bool_iff. apply (F y Hy).
    - destruct (pts_ok boot_size randint boot_pos draws (cost_of boot_size randint) p a m Dm rs) as (having & S & F).
      { intros r Hr. apply (stored_fresh p algos a rs r Hp Ha Hr). }
      exists having, l. split; [exact S|]. split; [symmetry; apply stable_sort_perm|].
      assert (Fh : forall r, In r having -> fresh r).
      { intros r Hr. apply (stored_fresh p algos a rs r Hp Ha). apply (selects_in _ _ _ r S). exact Hr. }
      fold l in F. clear - F Fh boot_pos draws. induction F as [|r q having l [E H] F IH]; constructor.
      + split; [|exact H]. rewrite E. apply cost_of_mean. apply Fh. left. reflexivity.
      + apply IH. intros r' Hr. apply Fh. right. exact Hr.
  Qed.

  Lemma pictures_from_stats_ok : known stored ->
    exists figs, pictures_from_stats boot_size randint stored = Some figs
      /\ NoDup (map (fun f => (c_problem f, c_metric f)) figs)
      /\ (forall f, In f figs -> exists algos, In (c_problem f, algos) stored /\ drawn_metric (c_metric f)
            /\ selects (fun a => exists rs line, In (a, rs) algos /\ cost_curve rs (c_metric f) line)
                       curve_names (map fst (c_lines f))
            /\ forall a line, In (a, line) (c_lines f) -> exists rs, In (a, rs) algos /\ cost_curve rs (c_metric f) line)
      /\ (forall p algos a rs m line, In (p, algos) stored -> In (a, rs) algos -> drawn_metric m ->
            cost_curve rs m line -> exists f, In f figs /\ c_problem f = p /\ c_metric f = m).
  Proof.
    intros K. pose proof T as [N _]. pose proof (fun p al => tidy_readable stored p al T) as R.
    unfold pictures_from_stats.
    rewrite (note_problems_eq boot_size randint (cost_of boot_size randint) _
               (note_budgets_eq boot_size randint boot_pos draws) stored [] R K).
    fold (curves_dict boot_size randint (cost_of boot_size randint) stored).
    set (d := curves_dict boot_size randint (cost_of boot_size randint) stored).
    assert (L : forall p a m line, lookup key3_eqb d (p, a, m) = Some line <->
       line <> [] /\ drawn_metric m /\ exists algos rs, In (p, algos) stored /\ In (a, rs) algos
                                        /\ line = pts (cost_of boot_size randint) p a rs m).
    { intros. apply curves_lookup; assumption. }
    assert (ND : NoDup (map fst d)) by apply (curves_nodup boot_size randint (cost_of boot_size randint)).
    assert (G : forall p algos a rs m line, In (p, algos) stored -> In (a, rs) algos -> drawn_metric m ->
              cost_curve rs m line -> lookup key3_eqb d (p, a, m) = Some (pts (cost_of boot_size randint) p a rs m)).
    { intros p algos a rs m line H1 H2 H3 (H4 & _ & having & points & S & Pm & F). apply L. split; [|split; [exact H3|eauto]].
      apply (curve_pts _ p algos a rs m having line H1 H2 H3 S); [|exact H4]. apply Forall2_length' in F.
      rewrite F. apply Permutation_length. exact Pm. }
    clearbody d. destruct (plot_results_ok d (500, 4500) ND) as (P1 & P2 & P3).
    eexists. split; [reflexivity|]. split; [exact P1|]. split.
    - intros f Hf. destruct (P2 f Hf) as (Er & (a & v & Hv) & S & Ln).
      pose proof (proj1 (L _ _ _ _) Hv) as (NEv & Dm & algos & rs & Y1 & Y2 & Y3).
      exists algos. split; [exact Y1|]. split; [exact Dm|]. split.
      + refine (selects_ext _ _ _ _ _ S). intros a' _. split.
        * intros (v' & Hv'). apply L in Hv'. destruct Hv' as (NE' & _ & al' & rs' & Z1 & Z2 & Z3).
          rewrite (unique_algos _ _ _ Z1 Y1) in Z2. eexists rs', _.
          split; [exact Z2|]. apply (pts_cost_curve _ _ _ _ _ Y1 Z2 Dm). congruence.
        * intros (rs' & line & Z1 & Z2). eexists. apply (G _ _ _ _ _ _ Y1 Z1 Dm Z2).
      + intros a' line H. apply Ln in H. destruct H as (_ & v' & Hv' & ->).
        apply L in Hv'. destruct Hv' as (NE' & _ & al' & rs' & Z1 & Z2 & Z3).
        rewrite (unique_algos _ _ _ Z1 Y1) in Z2. exists rs'. split; [exact Z2|]. subst v'.
        apply (pts_cost_curve _ _ _ _ _ Y1 Z2 Dm NE').
    - intros p algos a rs m line Y1 Y2 Y3 Y4. apply (P3 p a m _ (G _ _ _ _ _ _ Y1 Y2 Y3 Y4)).
  Qed.
End Pictures.
