(** Proofs about the whole ranking. *)
From Verif Require Import StatModel StatSpec StatProofs StatBoot StatRank SortProofs Base.
From Coq Require Import Lqa Qabs.
Local Open Scope Q_scope.

Lemma ranked_iff m larger tol :
  ranked m larger tol <-> best_func m = Some larger /\ winner_tolerance m = tol.
Proof.
  split.
  - intros H. destruct H; split; reflexivity.
  - intros [H <-]. unfold best_func, winner_tolerance in *.
    destruct (String.eqb_spec m "hypervolume") as [->|_]; [injection H as <-; apply rk_hv|].
    destruct (String.eqb_spec m "pdi") as [->|_]; [injection H as <-; apply rk_pdi|].
    destruct (String.eqb_spec m "igd") as [->|_]; [injection H as <-; apply rk_igd|].
    destruct (String.eqb_spec m "ahd") as [->|_]; [injection H as <-; apply rk_ahd|].
    destruct (String.eqb_spec m "spacing") as [->|_]; [injection H as <-; apply rk_spacing|].
    destruct (String.eqb_spec m "gd") as [->|_]; [injection H as <-; apply rk_gd|].
    discriminate.
Qed.

Lemma cost_not_ranked larger tol : ~ ranked "cost" larger tol.
Proof. rewrite ranked_iff. intros [H _]. discriminate. Qed.

Lemma tol_nonneg m : 0 <= winner_tolerance m.
Proof. unfold winner_tolerance. destruct (_ || _)%bool; unfold Qle; cbn; lia. Qed.

Definition occ (a : string) (l : list string) : nat := length (filter (String.eqb a) l).

Lemma occ_nodup a l : NoDup l -> occ a l = if existsb (String.eqb a) l then 1%nat else 0%nat.
Proof.
  unfold occ. induction 1 as [|x l Nx N IH]; [reflexivity|]. cbn [filter existsb].
  destruct (String.eqb_spec a x) as [->|Na]; cbn [orb length]; [|exact IH].
  rewrite IH. destruct (existsb (String.eqb x) l) eqn:E; [|reflexivity].
  exfalso. apply Nx. apply existsb_exists in E. destruct E as (y & Hy & Q).
  apply String.eqb_eq in Q. congruence.
Qed.

Lemma award_points m larger tol scores : ranked m larger tol -> scores <> [] ->
  NoDup (map fst scores) -> (forall a s, In (a, s) scores -> 0 <= s) ->
  exists names, award m larger scores = Some names
    /\ forall algo, points larger tol scores algo (occ algo names).
Proof.
  intros R N ND P. apply ranked_iff in R. destruct R as [_ <-]. unfold award.
  destruct (best_of larger scores) as [w|] eqn:B.
  2:{ unfold best_of in B. destruct scores; [congruence|discriminate]. }
  pose proof (best_wins _ _ _ B) as W.
  assert (Hw : In w scores).
  { destruct W as (b & a & E & _). rewrite E. apply in_or_app. right. left. reflexivity. }
  destruct (weak_ok scores w (winner_tolerance m) (tol_nonneg m)) as (ws & Ew & S).
  { apply (P (fst w)). destruct w; exact Hw. }
  { exact P. }
  rewrite Ew.
  assert (Riv : forall a, rival (winner_tolerance m) scores w a <-> In a (map fst ws)).
  { intros a. unfold rival. rewrite in_map_iff. split.
    - intros (s & H1 & H2 & H3). exists (a, s). split; [reflexivity|].
      apply (selects_in _ _ _ (a, s) S). cbn. auto.
    - intros ([a' s] & <- & H). apply (selects_in _ _ _ _ S) in H. cbn in H. exists s. cbn. tauto. }
  pose proof (selects_nodup _ _ _ S ND) as NW.
  destruct ws as [|x ws].
  - eexists. split; [reflexivity|]. intros algo. unfold occ. cbn [filter].
    destruct (String.eqb_spec algo (fst w)) as [E|E]; cbn [length].
    + apply pt_alone with w; auto. intros a H. apply Riv in H. destruct H.
    + apply pt_none with w; auto. intros H. apply Riv in H. destruct H.
  - eexists. split; [reflexivity|]. intros algo.
    assert (Nf : NoDup (fst w :: map fst (x :: ws))).
    { constructor; [|exact NW]. rewrite <- Riv. intros (s & _ & H & _). congruence. }
    rewrite (occ_nodup _ _ Nf).
    assert (Rx : rival (winner_tolerance m) scores w (fst x)) by (apply Riv; left; reflexivity).
    destruct (existsb (String.eqb algo) (fst w :: map fst (x :: ws))) eqn:E.
    + apply existsb_exists in E. destruct E as (y & Hy & Q). apply String.eqb_eq in Q. subst y.
      apply pt_shared with w (fst x); auto.
      destruct Hy as [Hy|Hy]; [left; congruence|right; apply Riv; exact Hy].
    + assert (~ In algo (fst w :: map fst (x :: ws))) as NI.
      { intros H. assert (existsb (String.eqb algo) (fst w :: map fst (x :: ws)) = true); [|congruence].
        apply existsb_exists. exists algo. split; [exact H|apply String.eqb_refl]. }
      apply pt_none with w; auto.
      * intros H. apply NI. left. congruence.
      * intros H. apply NI. right. apply Riv. exact H.
Qed.

(** ** The table of scores *)

Lemma key_eqb_iff a b : key_eqb a b = true <-> a = b.
Proof.
  unfold key_eqb. destruct a as [x y], b as [u v]. cbn. rewrite Bool.andb_true_iff, !String.eqb_eq.
  split; [intros [-> ->]; reflexivity|intros H; injection H; auto].
Qed.
Lemma key_eqb_spec a b : Bool.reflect (a = b) (key_eqb a b).
Proof. apply Bool.iff_reflect. symmetry. apply key_eqb_iff. Qed.

Definition table := list (key * list (string * Q)).

(** The scores filed under a key. *)
Fixpoint filed (d : table) (k : key) : list (string * Q) :=
  match d with
  | [] => []
  | (k', l) :: d' => if key_eqb k' k then l else filed d' k
  end.

Lemma filed_append d k k' x :
  filed (append_to d k x) k' = if key_eqb k k' then (filed d k' ++ [x])%list else filed d k'.
Proof.
  induction d as [|[k0 l] d IH]; cbn [append_to filed].
  - destruct (key_eqb_spec k k'); reflexivity.
  - destruct (key_eqb_spec k0 k) as [->|N]; cbn [filed].
    + destruct (key_eqb_spec k k'); reflexivity.
    + destruct (key_eqb_spec k0 k') as [->|N'].
      * destruct (key_eqb_spec k k'); [congruence|reflexivity].
      * exact IH.
Qed.

(** The keys of a table are those of one problem, all different, all with a ranked metric and
    some score. *)
Definition page (p : string) (d : table) : Prop :=
  NoDup (map fst d)
  /\ forall k l, In (k, l) d -> fst k = p /\ l <> [] /\ best_func (snd k) <> None.

Lemma append_keys (d : table) k x k' : In k' (map fst (append_to d k x)) <-> k' = k \/ In k' (map fst d).
Proof.
  induction d as [|[k0 l] d IH]; cbn [append_to].
  - cbn. intuition congruence.
  - destruct (key_eqb_spec k0 k) as [->|N]; cbn [map fst In]; [|rewrite IH]; intuition congruence.
Qed.

Lemma page_append p d m x : page p d -> best_func m <> None -> page p (append_to d (p, m) x).
Proof.
  intros [N H] B. induction d as [|[k0 l] d IH]; cbn [append_to].
  - split; [constructor; [intros []|constructor]|]. intros k l [E|[]]. injection E as <- <-.
    cbn. repeat split; auto. discriminate.
  - cbn [map] in N. inversion N as [|? ? N1 N2]; subst.
    assert (H' : forall k l, In (k, l) d -> fst k = p /\ l <> [] /\ best_func (snd k) <> None).
    { intros k l' Hk. apply H. right. exact Hk. }
    pose proof (H k0 l (or_introl eq_refl)) as (K1 & K2 & K3).
    destruct (key_eqb_spec k0 (p, m)) as [->|Nk].
    + split; [exact N|]. intros k l' [E|Hk]; [|auto]. injection E as <- <-.
      split; [reflexivity|]. split; [destruct l; discriminate|exact B].
    + destruct (IH N2 H') as [N' H''].
      split.
      * cbn [map fst]. constructor; [|exact N']. rewrite append_keys. intros [E|E]; [congruence|auto].
      * intros k l' [E|Hk]; [injection E as <- <-; auto|auto].
Qed.

Lemma append_front (d e : table) p m x : (forall k l, In (k, l) d -> fst k <> p) ->
  append_to (d ++ e) (p, m) x = (d ++ append_to e (p, m) x)%list.
Proof.
  induction d as [|[k l] d IH]; intros H; [reflexivity|]. cbn [app append_to].
  destruct (key_eqb_spec k (p, m)) as [->|N].
  - exfalso. apply (H (p, m) l); [left; reflexivity|reflexivity].
  - rewrite IH; [reflexivity|]. intros k' l' Hk. apply (H k' l'). right. exact Hk.
Qed.

Section Table.
  Variables (boot_size : nat) (randint : string * string * string * Q -> nat -> nat -> nat -> nat).
  Hypothesis boot_pos : (1 <= boot_size)%nat.
  Hypothesis draws : forall c, fair (randint c).

  Lemma score_ok p algo b : forall items d e,
    (forall k l, In (k, l) d -> fst k <> p) -> page p e ->
    NoDup (map fst items) -> (forall m v, In (m, v) items -> v <> []) ->
    exists e', score_loop boot_size randint p algo b items (d ++ e) = Some (d ++ e')%list
      /\ page p e'
      /\ (forall m, best_func m <> None ->
            (exists v s, In (m, v) items /\ is_mean v s /\ filed e' (p, m) = (filed e (p, m) ++ [(algo, s)])%list)
            \/ ((forall v, ~ In (m, v) items) /\ filed e' (p, m) = filed e (p, m))).
  Proof.
    induction items as [|[m0 v0] items IH]; intros d e Hd He N Ne; cbn [score_loop].
    - exists e. split; [reflexivity|]. split; [exact He|]. intros m _. right. split; [intros v []|reflexivity].
    - cbn [map fst] in N. inversion N as [|? ? N1 N2]; subst.
      assert (Ne' : forall m v, In (m, v) items -> v <> []) by (intros m v H; apply (Ne m); right; exact H).
      assert (Nv : forall v, ~ In (m0, v) items).
      { intros v H. apply N1. apply in_map_iff. exists (m0, v). auto. }
      destruct (best_func m0) as [lg|] eqn:B.
      + pose proof (Ne m0 v0 (or_introl eq_refl)) as Nv0.
        destruct (analysis_some (randint (p, algo, m0, b)) v0 boot_size (draws _) Nv0 boot_pos) as (a & Ea).
        destruct (analysis_inv _ _ _ _ Ea) as (_ & q1 & q3 & I).
        destruct I as (_ & _ & _ & _ & _ & _ & _ & _ & _ & M & _ & _ & _ & Bm).
        rewrite Ea, Bm, append_front by exact Hd.
        destruct (IH d (append_to e (p, m0) (algo, a_mean a)) Hd) as (e' & E' & P' & F'); auto.
        { apply page_append; [exact He|congruence]. }
        exists e'. split; [exact E'|]. split; [exact P'|]. intros m Bm'.
        specialize (F' m Bm'). rewrite filed_append in F'.
        destruct (key_eqb_spec (p, m0) (p, m)) as [E|NE].
        * injection E as <-. left. exists v0, (a_mean a). split; [left; reflexivity|]. split; [exact M|].
          destruct F' as [(v & s & H & _)|[_ F']]; [exfalso; apply (Nv v H)|exact F'].
        * destruct F' as [(v & s & H & Ms & F')|[H F']].
          -- left. exists v, s. split; [right; exact H|auto].
          -- right. split; [|exact F']. intros v [E|Hv]; [congruence|apply (H v Hv)].
      + destruct (IH d e Hd He N2 Ne') as (e' & E' & P' & F').
        exists e'. split; [exact E'|]. split; [exact P'|]. intros m Bm.
        destruct (F' m Bm) as [(v & s & H & Ms & F)|[H F]].
        * left. exists v, s. split; [right; exact H|auto].
        * right. split; [|exact F]. intros v [E|Hv]; [congruence|apply (H v Hv)].
  Qed.

  Lemma algos_ok p : forall algos d e,
    (forall k l, In (k, l) d -> fst k <> p) -> page p e ->
    (forall algo rs, In (algo, rs) algos -> rs <> [] /\ forall r, In r rs -> fresh r) ->
    exists e', algo_loop boot_size randint p algos (d ++ e) = Some (d ++ e')%list
      /\ page p e'
      /\ (forall m, best_func m <> None ->
            exists l, scored m algos l /\ filed e' (p, m) = (filed e (p, m) ++ l)%list).
  Proof.
    induction algos as [|[algo rs] algos IH]; intros d e Hd He F; cbn [algo_loop].
    - exists e. split; [reflexivity|]. split; [exact He|]. intros m _. exists []. split; [constructor|].
      rewrite app_nil_r. reflexivity.
    - assert (F' : forall algo rs, In (algo, rs) algos -> rs <> [] /\ forall r, In r rs -> fresh r).
      { intros a r H. apply (F a r). right. exact H. }
      destruct (F algo rs (or_introl eq_refl)) as [Nrs Fr].
      destruct (find_ok boot_size _ randint boot_pos draws
                  (fun r => (p, algo, "cost"%string, r_budget r)) rs Nrs Fr)
        as [[E H]|(r & costs & rest & A & Er & E)]; rewrite E.
      + destruct (IH d e Hd He F') as (e' & E' & P' & G).
        exists e'. split; [exact E'|]. split; [exact P'|]. intros m Bm.
        destruct (G m Bm) as (l & S & Fl). exists l. split; [|exact Fl]. apply sc_out; [|exact S].
        intros r data (b & x & y & L & Ex & Af & _) _. apply (H b r L); [|exact Af].
        rewrite Ex. apply in_or_app. right. left. reflexivity.
      + pose proof (Fr r (accepted_in _ _ A)) as Frr. pose proof Frr as (_ & ND & Ne).
        rewrite Er in ND. cbn [map fst] in ND. inversion ND as [|? ? ND1 ND2]; subst. cbn [r_budget r_analysis].
        destruct (score_ok p algo (r_budget r) rest d e Hd He ND2) as (e1 & E1 & P1 & G1).
        { intros m v H. apply (Ne m). rewrite Er. right. exact H. }
        rewrite E1. destruct (IH d e1 Hd P1 F') as (e' & E' & P' & G).
        exists e'. split; [exact E'|]. split; [exact P'|]. intros m Bm.
        destruct (G m Bm) as (l & S & Fl).
        destruct (G1 m Bm) as [(v & s & H & Ms & F1)|[H F1]].
        * exists ((algo, s) :: l). split.
          -- apply sc_in with r v; auto. unfold has_metric. rewrite Er. right. exact H.
          -- rewrite Fl, F1, <- app_assoc. reflexivity.
        * exists l. split; [|rewrite Fl, F1; reflexivity]. apply sc_out; [|exact S].
          intros r' data A' Hm. rewrite <- (accepted_unique _ _ _ A A') in Hm. unfold has_metric in Hm.
          rewrite Er in Hm. destruct Hm as [E0|Hm]; [|apply (H data Hm)].
          injection E0 as <- <-. apply Bm. reflexivity.
  Qed.

  (** ** Points *)

  Definition pts (names : list (string * string)) (m a : string) : nat :=
    length (filter (fun p => key_eqb p (m, a)) names).

  Lemma pts_app n n' m a : pts (n ++ n') m a = (pts n m a + pts n' m a)%nat.
  Proof. unfold pts. rewrite filter_app, app_length. reflexivity. Qed.

  Lemma pts_tag m names m' a : pts (map (fun a => (m, a)) names) m' a
    = if String.eqb m m' then occ a names else 0%nat.
  Proof.
    unfold pts, occ. induction names as [|x names IH]; cbn [map filter].
    - destruct (String.eqb m m'); reflexivity.
    - unfold key_eqb at 1. cbn [fst snd]. destruct (String.eqb_spec m m') as [->|N]; cbn [andb].
      + rewrite (String.eqb_sym x a). destruct (String.eqb a x); cbn [length]; rewrite IH; reflexivity.
      + exact IH.
  Qed.

  Lemma scored_names m algos l : scored m algos l -> forall a, In a (map fst l) -> In a (map fst algos).
  Proof.
    induction 1 as [|algo rs rest l r data s A H M S IH|algo rs rest l H S IH]; cbn; intros a Ha; auto.
    destruct Ha; auto.
  Qed.
  Lemma scored_nodup m algos l : scored m algos l -> NoDup (map fst algos) -> NoDup (map fst l).
  Proof.
    induction 1 as [|algo rs rest l r data s A H M S IH|algo rs rest l H S IH]; cbn; intros N; auto;
      inversion N; subst; auto.
    constructor; auto. intros Ha. apply (scored_names _ _ _ S) in Ha. auto.
  Qed.

  Lemma scored_nonneg m larger tol algos l : ranked m larger tol -> scored m algos l ->
    (forall algo rs, In (algo, rs) algos -> forall r, In r rs -> fresh r /\
        forall m larger tol d x, ranked m larger tol -> has_metric r m d -> In x d -> 0 <= x) ->
    forall a s, In (a, s) l -> 0 <= s.
  Proof.
    intros R. induction 1 as [|algo rs rest l r data s A H M S IH|algo rs rest l H S IH]; intros F a s' Hs.
    - destruct Hs.
    - destruct Hs as [E|Hs].
      + injection E as <- <-. destruct (F algo rs (or_introl eq_refl) r (accepted_in _ _ A)) as (Fr & G).
        assert (data <> []) as N by (apply (proj2 (proj2 Fr) m); exact H).
        destruct (data_range data N) as (lo & hi & Hlo & _ & B).
        destruct (mean_bounds data s lo hi N M B) as [L _].
        apply Qle_trans with lo; [|exact L]. eapply G; eauto.
      + apply (IH (fun a' r' H' => F a' r' (or_intror H')) a s' Hs).
    - apply (IH (fun a' r' H' => F a' r' (or_intror H')) a s' Hs).
  Qed.

  (** The names added for one page. *)
  Lemma award_page p (e : table) algos : page p e ->
    (forall m, best_func m <> None -> exists l, scored m algos l /\ filed e (p, m) = l) ->
    NoDup (map fst algos) ->
    (forall algo rs, In (algo, rs) algos -> forall r, In r rs -> fresh r /\
        forall m larger tol d x, ranked m larger tol -> has_metric r m d -> In x d -> 0 <= x) ->
    exists names, award_loop e = Some names
      /\ forall m larger tol algo, ranked m larger tol ->
           points larger tol (filed e (p, m)) algo (pts names m algo).
  Proof.
    intros [N H] G ND F.
    assert (Good : forall k l, In (k, l) e -> exists larger names, best_func (snd k) = Some larger
                      /\ award (snd k) larger l = Some names
                      /\ forall algo, points larger (winner_tolerance (snd k)) l algo (occ algo names)).
    { intros k l Hk. destruct (H k l Hk) as (K1 & K2 & K3).
      destruct (best_func (snd k)) as [larger|] eqn:B; [|congruence].
      assert (R : ranked (snd k) larger (winner_tolerance (snd k))) by (apply ranked_iff; auto).
      destruct (G (snd k)) as (l' & S & Fl); [congruence|].
      assert (filed e (p, snd k) = l) as Fk.
      { clear - N Hk K1. induction e as [|[k0 l0] e IH]; [destruct Hk|]. cbn [filed].
        cbn [map fst] in N. inversion N; subst. destruct Hk as [E|Hk].
        - injection E as -> ->. destruct (key_eqb_spec k (fst k, snd k)) as [_|C]; [reflexivity|].
          destruct k; cbn in C; congruence.
        - destruct (key_eqb_spec k0 (fst k, snd k)) as [->|_]; [|auto].
          exfalso. apply H1. apply in_map_iff. exists (k, l). split; [destruct k; reflexivity|exact Hk]. }
      rewrite <- Fl, Fk in S.
      destruct (award_points (snd k) larger (winner_tolerance (snd k)) l R K2) as (names & E & P).
      - eapply scored_nodup; eauto.
      - eapply scored_nonneg; eauto.
      - exists larger, names. auto. }
    clear G ND F. induction e as [|[k l] e IH]; cbn [award_loop].
    - exists []. split; [reflexivity|]. intros. apply pt_nobody. reflexivity.
    - cbn [map fst] in N. inversion N as [|? ? N1 N2]; subst.
      destruct IH as (more & Em & Pm); auto.
      { intros k' l' Hk. apply H. right. exact Hk. }
      { intros k' l' Hk. apply Good. right. exact Hk. }
      destruct (Good k l (or_introl eq_refl)) as (larger & names & B & A & P).
      destruct (H k l (or_introl eq_refl)) as (K1 & K2 & K3). destruct k as [p' m0]. cbn [fst snd] in *. subst p'.
      rewrite B, A, Em. eexists. split; [reflexivity|]. intros m lg tol algo R.
      rewrite pts_app, pts_tag. cbn [filed].
      destruct (key_eqb_spec (p, m0) (p, m)) as [E|NE].
      + injection E as <-. rewrite String.eqb_refl.
        assert (filed e (p, m0) = []) as Fe.
        { clear - N1. induction e as [|[k0 l0] e IH]; [reflexivity|]. cbn [filed].
          destruct (key_eqb_spec k0 (p, m0)) as [->|_].
          - exfalso. apply N1. left. reflexivity.
          - apply IH. intros C. apply N1. right. exact C. }
        assert (pts more m0 algo = 0%nat) as Z.
        { specialize (Pm m0 lg tol algo R). rewrite Fe in Pm. inversion Pm as [|w W|w a W|w W]; subst; auto;
            destruct W as (b & a' & E & _); destruct b; discriminate. }
        rewrite Z, Nat.add_0_r. apply ranked_iff in R. destruct R as [R1 <-].
        rewrite B in R1. injection R1 as <-. apply P.
      + destruct (String.eqb_spec m0 m) as [->|_]; [congruence|]. cbn [Nat.add]. apply (Pm m lg tol algo R).
  Qed.

  Lemma award_app d e n n' : award_loop d = Some n -> award_loop e = Some n' ->
    award_loop (d ++ e) = Some (n ++ n')%list.
  Proof.
    revert n. induction d as [|[[p m] l] d IH]; intros n Hd He; cbn [award_loop app] in *.
    - injection Hd as <-. exact He.
    - destruct (best_func m); [|discriminate]. destruct (award m b l); [|discriminate].
      destruct (award_loop d) as [nd|]; [|discriminate]. injection Hd as <-.
      rewrite (IH nd eq_refl He), app_assoc. reflexivity.
  Qed.

  Lemma problems_ok : forall stored d nd,
    tidy stored -> (forall p k l, In p (map fst stored) -> In (k, l) d -> fst k <> p) ->
    award_loop d = Some nd ->
    exists t names, problem_loop boot_size randint stored d = Some t
      /\ award_loop t = Some (nd ++ names)%list
      /\ forall m larger tol algo, ranked m larger tol ->
           ranking m larger tol algo stored (pts names m algo).
  Proof.
    induction stored as [|[p algos] stored IH]; intros d nd T Hd Ed; cbn [problem_loop].
    - exists d, []. split; [reflexivity|]. split; [rewrite app_nil_r; exact Ed|]. intros. constructor.
    - destruct T as [N T]. cbn [map fst] in N. inversion N as [|? ? N1 N2]; subst.
      destruct (T p algos (or_introl eq_refl)) as [ND F].
      destruct (algos_ok p algos d []) as (e & E & P & G).
      { intros k l Hk. apply (Hd p k l); [left; reflexivity|exact Hk]. }
      { split; [constructor|]. intros k l []. }
      { intros a rs Hr. destruct (F a rs Hr) as [F1 F2]. split; [exact F1|]. intros r Hin. apply F2. exact Hin. }
      rewrite app_nil_r in E. rewrite E.
      assert (G' : forall m, best_func m <> None -> exists l, scored m algos l /\ filed e (p, m) = l).
      { intros m Bm. destruct (G m Bm) as (l & S & Fl). exists l. auto. }
      destruct (award_page p e algos P G' ND) as (ne & Ee & Pe).
      { intros a rs Hr. destruct (F a rs Hr) as [_ F2]. exact F2. }
      destruct (IH (d ++ e)%list (nd ++ ne)%list) as (t & names & Et & At & Rt).
      + split; [exact N2|]. intros p' al Hp. apply (T p' al). right. exact Hp.
      + intros p' k l Hp Hk. apply in_app_or in Hk. destruct Hk as [Hk|Hk].
        * apply (Hd p' k l); [right; exact Hp|exact Hk].
        * destruct P as [_ P]. destruct (P k l Hk) as (-> & _). intros <-. apply N1. exact Hp.
      + apply award_app; auto.
      + exists t, (ne ++ names)%list. split; [exact Et|]. split; [rewrite app_assoc; exact At|].
        intros m larger tol algo R. rewrite pts_app.
        assert (best_func m <> None) as Bm by (apply ranked_iff in R; destruct R as [R _]; congruence).
        destruct (G' m Bm) as (l & S & Fl).
        apply rn_cons with l; auto. rewrite <- Fl. apply Pe. exact R.
  Qed.
End Table.
