(** Proofs for C153: the scores collected by the detailed ranking and the table. *)
From Verif Require Import PyStr PyStrFacts StatModel StatSpec StatProofs StatBoot StatRank StatTable SortProofs Base
  CellModel CellSpec CellProofs RdetModel RdetSpec.
Local Open Scope nat_scope.

(** ** Dictionaries *)
Section Dict.
  Context {K V : Type} (eqb : K -> K -> bool) (default : V).
  Hypothesis eqb_ok : forall a b, eqb a b = true <-> a = b.

  Lemma eqb_same a : eqb a a = true.
  Proof. apply eqb_ok. reflexivity. Qed.
  Lemma eqb_diff a b : a <> b -> eqb a b = false.
  Proof. intros H. destruct (eqb a b) eqn:E; [apply eqb_ok in E; contradiction | reflexivity]. Qed.

  Lemma get_upd d k f k' : get eqb default (upd eqb default d k f) k' =
    if eqb k k' then f (get eqb default d k') else get eqb default d k'.
  Proof.
    induction d as [|[k0 v] d IH]; cbn [upd get]; [reflexivity|].
    destruct (eqb k0 k) eqn:E; cbn [get].
    - apply eqb_ok in E. subst k0. destruct (eqb k k'); reflexivity.
    - rewrite IH. destruct (eqb k0 k') eqn:E'; [|reflexivity]. apply eqb_ok in E'. subst k0.
      destruct (eqb k k') eqn:E2; [|reflexivity]. apply eqb_ok in E2. subst k. rewrite eqb_same in E. discriminate.
  Qed.

  Lemma upd_keys d k f k' : In k' (map fst (upd eqb default d k f)) <-> k' = k \/ In k' (map fst d).
  Proof.
    induction d as [|[k0 v] d IH]; cbn [upd]; [cbn; intuition congruence|].
    destruct (eqb k0 k) eqn:E; cbn [map fst In].
    - apply eqb_ok in E. subst k0. intuition congruence.
    - rewrite IH. tauto.
  Qed.

  Lemma upd_nodup d k f : NoDup (map fst d) -> NoDup (map fst (upd eqb default d k f)).
  Proof.
    induction d as [|[k0 v] d IH]; intros N; cbn [upd]; [repeat constructor; intros []|].
    cbn [map fst] in N. inversion N as [|? ? N1 N2]; subst.
    destruct (eqb k0 k) eqn:E; cbn [map fst]; constructor; auto.
    rewrite upd_keys. intros [->|H]; [|auto]. rewrite eqb_same in E. discriminate.
  Qed.

  Lemma get_in d k v : NoDup (map fst d) -> In (k, v) d -> get eqb default d k = v.
  Proof.
    induction d as [|[k0 w] d IH]; intros N H; [destruct H|]. cbn [map fst] in N. inversion N as [|? ? N1 N2]; subst.
    cbn [get]. destruct H as [H|H].
    - injection H as -> ->. rewrite eqb_same. reflexivity.
    - destruct (eqb k0 k) eqn:E; [|auto]. apply eqb_ok in E. subst k0. exfalso. apply N1. apply in_map_iff. exists (k, v). auto.
  Qed.
  Lemma in_get d k : In k (map fst d) -> In (k, get eqb default d k) d.
  Proof.
    induction d as [|[k0 w] d IH]; intros H; [destruct H|]. cbn [get].
    destruct (eqb k0 k) eqn:E; [apply eqb_ok in E; subst k0; left; reflexivity|].
    destruct H as [H|H]; [cbn in H; subst k0; rewrite eqb_same in E; discriminate | right; auto].
  Qed.
End Dict.

(** ** The scores, listed directly *)

Section Ins.
  Context {K : Type} (eqb : K -> K -> bool).
  Hypothesis eqb_ok : forall a b, eqb a b = true <-> a = b.

  Definition ins (d : list (K * list (string * Q))) (e : K * (string * Q)) : list (K * list (string * Q)) :=
    upd eqb [] d (fst e) (fun l => l ++ [snd e])%list.

  Lemma ins_get es : forall d k,
    get eqb [] (fold_left ins es d) k = (get eqb [] d k ++ map snd (filter (fun e => eqb (fst e) k) es))%list.
  Proof.
    induction es as [|e es IH]; intros d k; cbn [fold_left filter]; [rewrite app_nil_r; reflexivity|].
    rewrite IH. unfold ins. rewrite (get_upd eqb [] eqb_ok). destruct (eqb (fst e) k); cbn [map]; [|reflexivity].
    rewrite <- app_assoc. reflexivity.
  Qed.
  Lemma ins_keys es : forall d k, In k (map fst (fold_left ins es d)) <-> In k (map fst d) \/ In k (map fst es).
  Proof.
    induction es as [|e es IH]; intros d k; cbn [fold_left map In]; [tauto|].
    rewrite IH. unfold ins. rewrite (upd_keys eqb [] eqb_ok). intuition congruence.
  Qed.
  Lemma ins_nodup es : forall d, NoDup (map fst d) -> NoDup (map fst (fold_left ins es d)).
  Proof.
    induction es as [|e es IH]; intros d N; cbn [fold_left]; [exact N|]. apply IH. apply (upd_nodup eqb [] eqb_ok), N.
  Qed.
End Ins.

Definition mean_of (data : list Q) : Q := match average data with Fin q => q | NegInf => 0%Q end.
Definition affordb (b : Z) (analysis : list (string * list Q)) : bool :=
  match analysis with (_, costs) :: _ => Qle_bool (mean_of costs) (inject_Z b + 500) | [] => true end.

Definition items_e {K} (mk : string -> K) (algo : string) (items : list (string * list Q)) : list (K * (string * Q)) :=
  flat_map (fun it => match best_func (fst it) with Some _ => [(mk (fst it), (algo, mean_of (snd it)))] | None => [] end) items.
Definition res_e {K} (ok : Z -> list (string * list Q) -> bool) (mk : Z -> string -> K) (algo : string)
  (rs : list (Z * list (string * list Q))) : list (K * (string * Q)) :=
  flat_map (fun r => if ok (fst r) (snd r) then items_e (mk (fst r)) algo (snd r) else []) rs.
Definition algos_e {K} (ok : Z -> list (string * list Q) -> bool) (mk : Z -> string -> K)
  (algos : list (string * list (Z * list (string * list Q)))) : list (K * (string * Q)) :=
  flat_map (fun a => res_e ok mk (fst a) (snd a)) algos.
Definition board_e (stored : board) : list (pbm * (string * Q)) :=
  flat_map (fun p => algos_e affordb (fun b m => (fst p, (b, m))) (snd p)) stored.

Lemma bm_eqb_ok a b : bm_eqb a b = true <-> a = b.
Proof.
  destruct a as [x y], b as [u v]. unfold bm_eqb. cbn. rewrite Bool.andb_true_iff, Z.eqb_eq, String.eqb_eq.
  split; [intros [-> ->]; reflexivity | intros H; injection H; auto].
Qed.
Lemma pbm_eqb_ok a b : pbm_eqb a b = true <-> a = b.
Proof.
  destruct a as [x y], b as [u v]. unfold pbm_eqb. cbn [fst snd]. rewrite Bool.andb_true_iff, String.eqb_eq, bm_eqb_ok.
  split; [intros [-> ->]; reflexivity | intros H; injection H; auto].
Qed.

Section Scores.
  Variables (boot_size : nat) (randint : string * string * string * Z -> nat -> nat -> nat -> nat).
  Hypothesis boot_pos : 1 <= boot_size.
  Hypothesis draws : forall c, fair (randint c).

  Lemma analysis_mean c data : data <> [] ->
    exists a, yield_analysis (randint c) data boot_size = Some a /\ b_metrics (a_btstrpd a) = Fin (mean_of data) /\
              is_mean data (mean_of data).
  Proof.
    intros N. destruct (analysis_some (randint c) data boot_size (draws c) N boot_pos) as (a & E). exists a. split; [exact E|].
    destruct (analysis_inv _ _ _ _ E) as (_ & q1 & q3 & _ & _ & _ & _ & _ & _ & _ & _ & _ & _ & _ & _ & Hb & Hm).
    unfold mean_of. destruct (average_mean data N) as (m & Am & Mm). rewrite Am. split; [|exact Mm].
    rewrite (bootstrap_mean _ _ _ _ _ _ Hb). exact Am.
  Qed.

  Lemma score_items_eq {K} (eqb : K -> K -> bool) mk p algo b items : forall d,
    (forall m data, In (m, data) items -> data <> []) ->
    score_items boot_size randint eqb mk p algo b items d = Some (fold_left (ins eqb) (items_e mk algo items) d).
  Proof.
    induction items as [|[m data] items IH]; intros d N; cbn [score_items]; [reflexivity|].
    assert (N' : forall m data, In (m, data) items -> data <> []) by (intros; apply (N m0); right; assumption).
    unfold items_e. cbn [flat_map fst snd]. destruct (best_func m) as [lg|].
    - destruct (analysis_mean (p, algo, m, b) data) as (a & -> & -> & _); [apply (N m); left; reflexivity|].
      rewrite IH by exact N'. reflexivity.
    - rewrite IH by exact N'. reflexivity.
  Qed.

  Definition good_result (b : Z) (an : list (string * list Q)) : Prop := fresh (as_result b an).

  Lemma validate_eq c b an : good_result b an ->
    exists costs rest, an = ("cost"%string, costs) :: rest /\
      validate_cost boot_size _ randint c (as_result b an) 500 = Some (affordb b an, rest) /\
      (affordb b an = true <-> in_budget (as_result b an)).
  Proof.
    intros F. pose proof F as ((costs & rest & E) & _ & Ne). cbn in E. subst an.
    assert (N : costs <> []) by (apply (Ne "cost"%string); left; reflexivity).
    destruct (analysis_mean c costs N) as (a & Ea & Eb & M).
    exists costs, rest. split; [reflexivity|]. split.
    - unfold validate_cost. cbn [r_analysis as_result validate_loop]. rewrite String.eqb_refl, Ea, Eb. reflexivity.
    - cbn [affordb]. rewrite Qle_bool_iff. symmetry. unfold in_budget. cbn [r_budget as_result].
      apply (affordable_iff (as_result b (("cost"%string, costs) :: rest)) costs rest (mean_of costs)); auto.
  Qed.

  Lemma items_e_cost {K} (mk : string -> K) algo costs rest :
    items_e mk algo (("cost"%string, costs) :: rest) = items_e mk algo rest.
  Proof. reflexivity. Qed.

  Lemma details_results_eq p algo rs : forall d, (forall b an, In (b, an) rs -> good_result b an) ->
    details_results boot_size randint p algo rs d =
    Some (fold_left (ins pbm_eqb) (res_e affordb (fun b m => (p, (b, m))) algo rs) d).
  Proof.
    induction rs as [|[b an] rs IH]; intros d G; cbn [details_results]; [reflexivity|].
    assert (G' : forall b an, In (b, an) rs -> good_result b an) by (intros; apply G; right; assumption).
    assert (Gb : good_result b an) by (apply G; left; reflexivity).
    destruct (validate_eq (p, algo, "cost"%string, b) b an Gb) as (costs & rest & E & -> & _).
    unfold res_e. cbn [flat_map fst snd]. destruct (affordb b an) eqn:A.
    - rewrite score_items_eq.
      + rewrite IH by exact G'. rewrite fold_left_app. subst an. rewrite items_e_cost. reflexivity.
      + intros m data H. destruct Gb as (_ & _ & Ne). apply (Ne m). subst an. right. exact H.
    - rewrite IH by exact G'. reflexivity.
  Qed.

  Lemma details_algos_eq p algos : forall d, (forall algo rs b an, In (algo, rs) algos -> In (b, an) rs -> good_result b an) ->
    details_algos boot_size randint p algos d =
    Some (fold_left (ins pbm_eqb) (algos_e affordb (fun b m => (p, (b, m))) algos) d).
  Proof.
    induction algos as [|[algo rs] algos IH]; intros d G; cbn [details_algos]; [reflexivity|].
    rewrite details_results_eq by (intros b an H; apply (G algo rs b an); [left; reflexivity | exact H]).
    rewrite IH by (intros a r b an H1 H2; apply (G a r b an); [right; exact H1 | exact H2]).
    unfold algos_e. cbn [flat_map fst snd]. rewrite fold_left_app. reflexivity.
  Qed.

  Lemma details_problems_eq stored : forall d,
    (forall p algos algo rs b an, In (p, algos) stored -> In (algo, rs) algos -> In (b, an) rs -> good_result b an) ->
    details_problems boot_size randint stored d = Some (fold_left (ins pbm_eqb) (board_e stored) d).
  Proof.
    induction stored as [|[p algos] stored IH]; intros d G; cbn [details_problems]; [reflexivity|].
    rewrite details_algos_eq by (intros a r b an H1 H2; apply (G p algos a r b an); [left; reflexivity | exact H1 | exact H2]).
    rewrite IH by (intros q al a r b an H0 H1 H2; apply (G q al a r b an); [right; exact H0 | exact H1 | exact H2]).
    unfold board_e. cbn [flat_map fst snd]. rewrite fold_left_app. reflexivity.
  Qed.

  Definition is40 (b : Z) (an : list (string * list Q)) : bool := Z.eqb b 40.

  Lemma table_results_eq p algo rs : forall d, (forall b an, In (b, an) rs -> good_result b an) ->
    table_results boot_size randint p algo rs d = Some (fold_left (ins bm_eqb) (res_e is40 (fun b m => (b, m)) algo rs) d).
  Proof.
    induction rs as [|[b an] rs IH]; intros d G; cbn [table_results]; [reflexivity|].
    assert (G' : forall b an, In (b, an) rs -> good_result b an) by (intros; apply G; right; assumption).
    assert (Gb : good_result b an) by (apply G; left; reflexivity).
    unfold res_e. cbn [flat_map fst snd]. unfold is40. destruct (Z.eqb b 40).
    - rewrite score_items_eq by (intros m data H; destruct Gb as (_ & _ & Ne); apply (Ne m); exact H).
      rewrite IH by exact G'. rewrite fold_left_app. reflexivity.
    - rewrite IH by exact G'. reflexivity.
  Qed.

  Lemma table_algos_eq p algos : forall d, (forall algo rs b an, In (algo, rs) algos -> In (b, an) rs -> good_result b an) ->
    table_algos boot_size randint p algos d = Some (fold_left (ins bm_eqb) (algos_e is40 (fun b m => (b, m)) algos) d).
  Proof.
    induction algos as [|[algo rs] algos IH]; intros d G; cbn [table_algos]; [reflexivity|].
    rewrite table_results_eq by (intros b an H; apply (G algo rs b an); [left; reflexivity | exact H]).
    rewrite IH by (intros a r b an H1 H2; apply (G a r b an); [right; exact H1 | exact H2]).
    unfold algos_e. cbn [flat_map fst snd]. rewrite fold_left_app. reflexivity.
  Qed.

  (** ** What is filed under a key *)

  (** The scores of one problem for one budget and metric. *)
  Definition sel (ok : Z -> list (string * list Q) -> bool) (b : Z) (m : string)
    (algos : list (string * list (Z * list (string * list Q)))) : list (string * Q) :=
    map snd (filter (fun e => bm_eqb (fst e) (b, m)) (algos_e ok (fun b m => (b, m)) algos)).

  Lemma filter_app_nil {A} (f : A -> bool) l : (forall x, In x l -> f x = false) -> filter f l = [].
  Proof. apply filter_none. Qed.

  Lemma items_sel algo b b' m items : NoDup (map fst items) -> best_func m <> None ->
    map snd (filter (fun e : bm * (string * Q) => bm_eqb (fst e) (b, m)) (items_e (fun x => (b', x)) algo items)) =
    if Z.eqb b' b then match find (fun it : string * list Q => String.eqb (fst it) m) items with
                       | Some it => [(algo, mean_of (snd it))] | None => [] end else [].
  Proof.
    intros N B. destruct (Z.eqb_spec b' b) as [->|Hb].
    - induction items as [|[x data] items IH]; [reflexivity|].
      cbn [map fst] in N. inversion N as [|? ? N1 N2]; subst. cbn [find fst].
      change (items_e (fun x => (b, x)) algo ((x, data) :: items)) with
        ((match best_func x with Some _ => [((b, x), (algo, mean_of data))] | None => [] end) ++ items_e (fun x => (b, x)) algo items)%list.
      rewrite filter_app, map_app.
      destruct (String.eqb_spec x m) as [->|Hx].
      + destruct (best_func m) as [lg|]; [|congruence]. cbn [filter fst]. replace (bm_eqb (b, m) (b, m)) with true by (symmetry; apply bm_eqb_ok; reflexivity).
        specialize (IH N2); rewrite IH. destruct (find _ items) as [[y dy]|] eqn:F; [|reflexivity].
        exfalso. apply find_some in F. destruct F as [F1 F2]. cbn in F2. apply String.eqb_eq in F2. subst y.
        apply N1. apply in_map_iff. exists (m, dy). auto.
      + specialize (IH N2); rewrite IH. replace (filter _ (match best_func x with Some _ => _ | None => _ end)) with (@nil (Z * string * (string * Q))); [reflexivity|].
        destruct (best_func x); [|reflexivity]. cbn [filter fst]. unfold bm_eqb. cbn [fst snd].
        destruct (String.eqb_spec x m); [contradiction|]. rewrite Bool.andb_false_r. reflexivity.
    - rewrite filter_none; [reflexivity|]. intros e He. unfold items_e in He. apply in_flat_map in He.
      destruct He as (it & _ & He). destruct (best_func (fst it)); [|destruct He].
      destruct He as [<-|[]]. unfold bm_eqb. cbn [fst snd]. destruct (Z.eqb_spec b' b); [contradiction | reflexivity].
  Qed.

  Lemma res_sel ok algo b m rs : NoDup (map fst rs) -> (forall b an, In (b, an) rs -> good_result b an) -> best_func m <> None ->
    map snd (filter (fun e : bm * (string * Q) => bm_eqb (fst e) (b, m)) (res_e ok (fun b m => (b, m)) algo rs)) =
    match find (fun r : Z * list (string * list Q) => Z.eqb (fst r) b) rs with
    | Some (_, an) =>
        if ok b an then match find (fun it : string * list Q => String.eqb (fst it) m) an with
                        | Some it => [(algo, mean_of (snd it))] | None => [] end else []
    | None => []
    end.
  Proof.
    intros N G B. induction rs as [|[b' an] rs IH]; [reflexivity|].
    cbn [map fst] in N. inversion N as [|? ? N1 N2]; subst. cbn [find fst].
    change (res_e ok (fun b m => (b, m)) algo ((b', an) :: rs)) with
      ((if ok b' an then items_e (fun x => (b', x)) algo an else []) ++ res_e ok (fun b m => (b, m)) algo rs)%list.
    rewrite filter_app, map_app.
    assert (Nan : NoDup (map fst an)) by (destruct (G b' an (or_introl eq_refl)) as (_ & X & _); exact X).
    assert (E1 : map snd (filter (fun e : bm * (string * Q) => bm_eqb (fst e) (b, m))
                   (if ok b' an then items_e (fun x => (b', x)) algo an else [])) =
                 if Z.eqb b' b then if ok b an then match find (fun it : string * list Q => String.eqb (fst it) m) an with
                        | Some it => [(algo, mean_of (snd it))] | None => [] end else [] else []).
    { destruct (Z.eqb_spec b' b) as [->|Hb].
      - destruct (ok b an); [|reflexivity]. rewrite items_sel by assumption. rewrite Z.eqb_refl. reflexivity.
      - destruct (ok b' an); [|reflexivity]. rewrite items_sel by assumption.
        destruct (Z.eqb_spec b' b); [contradiction | reflexivity]. }
    specialize (IH N2 (fun b0 an0 H => G b0 an0 (or_intror H))). rewrite E1, IH.
    destruct (Z.eqb_spec b' b) as [->|Hb]; [|reflexivity].
    destruct (find _ rs) as [[b0 an0]|] eqn:F; [|rewrite app_nil_r; reflexivity].
    exfalso. apply find_some in F. destruct F as [F1 F2]. cbn in F2. apply Z.eqb_eq in F2. subst b0.
    apply N1. apply in_map_iff. exists (b, an0). auto.
  Qed.

  Lemma sel_scored ok (admitted : result -> Prop) b m algos :
    (forall algo rs, In (algo, rs) algos -> NoDup (map fst rs) /\ forall b an, In (b, an) rs -> good_result b an) ->
    (forall algo rs an, In (algo, rs) algos -> In (b, an) rs -> (ok b an = true <-> admitted (as_result b an))) ->
    best_func m <> None -> scored_at admitted b m algos (sel ok b m algos).
  Proof.
    intros G A B. induction algos as [|[algo rs] algos IH]; [constructor|].
    unfold sel at 1.
    change (algos_e ok (fun b m => (b, m)) ((algo, rs) :: algos)) with
      (res_e ok (fun b m => (b, m)) algo rs ++ algos_e ok (fun b m => (b, m)) algos)%list.
    rewrite filter_app, map_app. fold (sel ok b m algos).
    assert (IH' : scored_at admitted b m algos (sel ok b m algos)).
    { apply IH; [intros a r H; apply (G a r); right; exact H | intros a r an H; apply (A a r an); right; exact H]. }
    destruct (G algo rs (or_introl eq_refl)) as [N Gr].
    rewrite res_sel by assumption.
    assert (A' : forall an, In (b, an) rs -> (ok b an = true <-> admitted (as_result b an)))
      by (intros an H; apply (A algo rs an); [left; reflexivity | exact H]).
    destruct (find _ rs) as [[b' an]|] eqn:F.
    - apply find_some in F. destruct F as [F1 F2]. cbn in F2. apply Z.eqb_eq in F2. subst b'.
      assert (U : forall an', In (b, an') rs -> an' = an).
      { intros an' H. clear - N F1 H. induction rs as [|[b0 a0] rs IHrs]; [destruct H|].
        cbn [map fst] in N. inversion N as [|? ? N1 N2]; subst. destruct F1 as [F1|F1], H as [H|H].
        - congruence.
        - injection F1 as -> ->. exfalso. apply N1. apply in_map_iff. exists (b, an'). auto.
        - injection H as -> ->. exfalso. apply N1. apply in_map_iff. exists (b, an). auto.
        - auto. }
      destruct (ok b an) eqn:Eo.
      + destruct (find _ an) as [[x data]|] eqn:F'.
        * apply find_some in F'. destruct F' as [F3 F4]. cbn in F4. apply String.eqb_eq in F4. subst x.
          cbn [app snd]. apply (sa_in admitted b m algo rs algos _ an data); auto.
          -- apply A'; auto.
          -- destruct (Gr b an F1) as (_ & _ & Ne). specialize (Ne m data F3).
             unfold mean_of. destruct (average_mean data Ne) as (q & -> & Mq). exact Mq.
        * cbn [app]. apply sa_out; [|exact IH']. intros an' data H Ha Hm. rewrite (U an' H) in Hm.
          apply (find_none _ _ F' (m, data)) in Hm. cbn in Hm. rewrite String.eqb_refl in Hm. discriminate.
      + cbn [app]. apply sa_out; [|exact IH']. intros an' data H Ha _. rewrite (U an' H) in *. apply A' in Ha; [congruence | exact F1].
    - cbn [app]. apply sa_out; [|exact IH']. intros an data H _ _.
      apply (find_none _ _ F (b, an)) in H. cbn in H. rewrite Z.eqb_refl in H. discriminate.
  Qed.
End Scores.

Lemma scored_at_names admitted b m algos l l' : scored_at admitted b m algos l -> scored_at admitted b m algos l' ->
  map fst l = map fst l'.
Proof.
  intros H. revert l'. induction H as [|algo rs rest l an data s Hi Ha Hm Hs H IH|algo rs rest l Ho H IH]; intros l' H'.
  - inversion H'. reflexivity.
  - inversion H'; subst; cbn; [f_equal; auto|]. exfalso. match goal with X : forall _ _, _ -> _ -> ~ _ |- _ => eapply X; eauto end.
  - inversion H'; subst; cbn; [|auto]. exfalso. eapply Ho; eauto.
Qed.

Lemma scored_at_nodup admitted b m algos l : NoDup (map fst algos) -> scored_at admitted b m algos l ->
  NoDup (map fst l) /\ forall a, In a (map fst l) -> In a (map fst algos).
Proof.
  intros N H. induction H as [|algo rs rest l an data s Hi Ha Hm Hs H IH|algo rs rest l Ho H IH]; cbn [map fst] in *.
  - split; [constructor | intros a []].
  - inversion N as [|? ? N1 N2]; subst. destruct (IH N2) as [I1 I2]. split.
    + constructor; [|exact I1]. intros C. apply N1, I2, C.
    + intros a [<-|Ha']; [left; reflexivity | right; auto].
  - inversion N as [|? ? N1 N2]; subst. destruct (IH N2) as [I1 I2]. split; [exact I1|]. intros a Ha'. right. auto.
Qed.

(** ** The detailed ranking *)

Lemma algos_e_map {K} ok (f : bm -> K) algos :
  algos_e ok (fun b m => f (b, m)) algos = map (fun e => (f (fst e), snd e)) (algos_e ok (fun b m => (b, m)) algos).
Proof.
  assert (MF : forall A B C (g : B -> C) (h : A -> list B) l, map g (flat_map h l) = flat_map (fun x => map g (h x)) l).
  { intros A B C g h l. induction l as [|x l IH]; [reflexivity|]. cbn [flat_map]. rewrite map_app, IH. reflexivity. }
  unfold algos_e. rewrite MF. apply flat_map_ext. intros [algo rs]. cbn [fst snd].
  unfold res_e. rewrite MF. apply flat_map_ext. intros [b an]. cbn [fst snd]. destruct (ok b an); [|reflexivity].
  unfold items_e. rewrite MF. apply flat_map_ext. intros [m data]. cbn [fst snd]. destruct (best_func m); reflexivity.
Qed.

Lemma page_sel ok p p' b m algos :
  map snd (filter (fun e : pbm * (string * Q) => pbm_eqb (fst e) (p, (b, m))) (algos_e ok (fun b m => (p', (b, m))) algos)) =
  if String.eqb p' p then sel ok b m algos else [].
Proof.
  pose proof (algos_e_map ok (fun k : bm => (p', k)) algos) as X. rewrite X. clear X. unfold sel. generalize (algos_e ok (fun b m => (b, m)) algos).
  intros l. induction l as [|e l IH]; cbn [map filter fst]; [destruct (String.eqb p' p); reflexivity|].
  unfold pbm_eqb at 1. cbn [fst snd]. destruct (String.eqb p' p); cbn [andb]; [|exact IH].
  destruct (bm_eqb (fst e) (b, m)); cbn [map snd]; [f_equal|]; exact IH.
Qed.

Lemma board_sel stored p algos b m : NoDup (map fst stored) -> In (p, algos) stored ->
  map snd (filter (fun e : pbm * (string * Q) => pbm_eqb (fst e) (p, (b, m))) (board_e stored)) = sel affordb b m algos.
Proof.
  intros N H. unfold board_e.
  assert (Z : forall st, ~ In p (map fst st) ->
     map snd (filter (fun e : pbm * (string * Q) => pbm_eqb (fst e) (p, (b, m)))
       (flat_map (fun p0 => algos_e affordb (fun b0 m0 => (fst p0, (b0, m0))) (snd p0)) st)) = []).
  { induction st as [|[q al] st IH]; intros Hn; [reflexivity|]. cbn [flat_map fst snd]. rewrite filter_app, map_app, page_sel, IH.
    - destruct (String.eqb_spec q p) as [->|]; [|reflexivity]. exfalso. apply Hn. left. reflexivity.
    - intros C. apply Hn. right. exact C. }
  induction stored as [|[q al] stored IH]; [destruct H|]. cbn [map fst] in N. inversion N as [|? ? N1 N2]; subst.
  cbn [flat_map fst snd]. rewrite filter_app, map_app, page_sel. destruct H as [H|H].
  - injection H as -> ->. rewrite String.eqb_refl, Z by exact N1. apply app_nil_r.
  - rewrite (IH N2 H). destruct (String.eqb_spec q p) as [->|]; [|reflexivity].
    exfalso. apply N1. apply in_map_iff. exists (p, algos). auto.
Qed.

Lemma board_keys stored p b m : In (p, (b, m)) (map fst (board_e stored)) <->
  exists algos, In (p, algos) stored /\ sel affordb b m algos <> [].
Proof.
  unfold board_e. rewrite in_map_iff. split.
  - intros (e & Ee & H). apply in_flat_map in H. destruct H as ([q algos] & H1 & H2). cbn [fst snd] in H2.
    exists algos. pose proof H2 as H3. rewrite (algos_e_map affordb (fun k => (q, k)) algos) in H3.
    apply in_map_iff in H3. destruct H3 as (e' & <- & H3). cbn [fst] in Ee. injection Ee as -> Ek.
    split; [exact H1|]. unfold sel. intros C.
    assert (X : In (snd e') (map snd (filter (fun e => bm_eqb (fst e) (b, m)) (algos_e affordb (fun b m => (b, m)) algos)))).
    { apply in_map. apply filter_In. split; [exact H3 | apply bm_eqb_ok; exact Ek]. }
    rewrite C in X. destruct X.
  - intros (algos & H & N).
    assert (X : exists s, In s (map snd (filter (fun e : pbm * (string * Q) => pbm_eqb (fst e) (p, (b, m)))
                (algos_e affordb (fun b m => (p, (b, m))) algos)))).
    { rewrite page_sel, String.eqb_refl. destruct (sel affordb b m algos) as [|s l]; [congruence | exists s; left; reflexivity]. }
    destruct X as (s & X). apply in_map_iff in X. destruct X as (e & _ & X). apply filter_In in X. destruct X as [X1 X2].
    apply pbm_eqb_ok in X2. exists e. split; [exact X2|]. apply in_flat_map. exists (p, algos). split; [exact H | exact X1].
Qed.

Lemma sel_best ok b m algos : sel ok b m algos <> [] -> exists larger, best_func m = Some larger.
Proof.
  intros H. unfold sel in H. destruct (filter _ _) as [|e l] eqn:E; [cbn in H; congruence|].
  assert (X : In e (filter (fun e => bm_eqb (fst e) (b, m)) (algos_e ok (fun b m => (b, m)) algos))) by (rewrite E; left; reflexivity).
  apply filter_In in X. destruct X as [X1 X2]. apply bm_eqb_ok in X2.
  apply in_flat_map in X1. destruct X1 as (a & _ & X1). apply in_flat_map in X1. destruct X1 as (r & _ & X1).
  destruct (ok (fst r) (snd r)); [|destruct X1]. apply in_flat_map in X1. destruct X1 as (it & _ & X1).
  destruct (best_func (fst it)) as [lg|] eqn:B; [|destruct X1]. destruct X1 as [<-|[]]. cbn in X2. injection X2 as _ <-. eauto.
Qed.

Definition champion (larger : bool) (scores : list (string * Q)) (a : string) : bool :=
  match best_of larger scores with Some w => String.eqb a (fst w) | None => false end.

Lemma details_winners_ok scoring : forall c,
  (forall k scores, In (k, scores) scoring -> best_func (snd (snd k)) <> None /\ scores <> []) ->
  NoDup (map fst c) -> (forall k, tidy_counter (get bm_eqb [] c k)) ->
  exists c', details_winners scoring c = Some c' /\ NoDup (map fst c') /\ (forall k, tidy_counter (get bm_eqb [] c' k)) /\
    (forall k, In k (map fst c') <-> In k (map fst c) \/ exists p, In (p, k) (map fst scoring)) /\
    (forall k larger a, best_func (snd k) = Some larger ->
       value (get bm_eqb [] c' k) a = value (get bm_eqb [] c k) a +
         length (filter (fun e => bm_eqb (snd (fst e)) k && champion larger (snd e) a)%bool scoring)).
Proof.
  induction scoring as [|[[p k0] scores] scoring IH]; intros c G N T; cbn [details_winners].
  - exists c. split; [reflexivity|]. split; [exact N|]. split; [exact T|]. split.
    + intros k. split; [intros H; left; exact H | intros [H|(p & [])]; exact H].
    + intros. cbn. lia.
  - destruct (G (p, k0) scores (or_introl eq_refl)) as [Gb Gs]. cbn [snd] in Gb.
    destruct (best_func (snd k0)) as [lg|] eqn:B; [|congruence].
    destruct (best_of lg scores) as [w|] eqn:W; [|destruct scores; [congruence | discriminate W]].
    destruct (IH (upd bm_eqb [] c k0 (fun n => count_one n (fst w)))) as (c' & E & N' & T' & K' & V').
    + intros k s H. apply (G k s). right. exact H.
    + apply (upd_nodup bm_eqb [] bm_eqb_ok), N.
    + intros k. rewrite (get_upd bm_eqb [] bm_eqb_ok). destruct (bm_eqb k0 k); [apply count_one_spec, T | apply T].
    + exists c'. split; [exact E|]. split; [exact N'|]. split; [exact T'|]. split.
      * intros k. rewrite K', (upd_keys bm_eqb [] bm_eqb_ok). cbn [map fst In]. split.
        -- intros [[->|H]|(q & H)]; [right; exists p; left; reflexivity | left; exact H | right; exists q; right; exact H].
        -- intros [H|(q & [H|H])]; [left; right; exact H | injection H as _ <-; left; left; reflexivity | right; exists q; exact H].
      * intros k larger a Bk. rewrite (V' k larger a Bk), (get_upd bm_eqb [] bm_eqb_ok). cbn [filter fst snd].
        destruct (bm_eqb k0 k) eqn:Ek; cbn [andb]; [|lia].
        apply bm_eqb_ok in Ek. subst k0. rewrite B in Bk. injection Bk as ->.
        unfold champion at 2. rewrite W. destruct (count_one_spec (get bm_eqb [] c k) (fst w) (T k)) as (_ & V & _). rewrite V.
        destruct (String.eqb a (fst w)); cbn [length]; lia.
Qed.

Lemma wins_unique larger scores w w' : wins larger scores w -> wins larger scores w' -> w = w'.
Proof.
  intros (b & a & E & Hb & Ha) (b' & a' & E' & Hb' & Ha'). rewrite E in E'.
  revert b' E' Hb'. clear E. induction b as [|x b IH]; intros [|x' b'] E' Hb'; cbn in E'.
  - congruence.
  - injection E' as -> ->. exfalso. assert (B : better larger (snd w') (snd x')) by (apply Hb'; left; reflexivity).
    assert (~ better larger (snd w') (snd x')) by (apply Ha; apply in_or_app; right; left; reflexivity). tauto.
  - injection E' as <- <-. exfalso. assert (B : better larger (snd w) (snd x)) by (apply Hb; left; reflexivity).
    assert (~ better larger (snd w) (snd x)) by (apply Ha'; apply in_or_app; right; left; reflexivity). tauto.
  - injection E' as -> E'. apply (IH (fun y Hy => Hb y (or_intror Hy)) b' E' (fun y Hy => Hb' y (or_intror Hy))).
Qed.

Lemma champion_wins larger scores a : champion larger scores a = true <-> exists s, wins larger scores (a, s).
Proof.
  unfold champion. destruct (best_of larger scores) as [w|] eqn:E.
  - pose proof (best_wins _ _ _ E) as W. split.
    + intros H. apply String.eqb_eq in H. subst a. exists (snd w). destruct w. exact W.
    + intros (s & H). rewrite (wins_unique _ _ _ _ W H). apply String.eqb_refl.
  - split; [discriminate|]. intros (s & b & a' & H & _). destruct scores; [destruct b; discriminate | discriminate E].
Qed.

Lemma victories_count larger b m a stored :
  (forall p algos, In (p, algos) stored -> scored_at in_budget b m algos (sel affordb b m algos)) ->
  victories larger b m a stored (length (filter (fun pa => champion larger (sel affordb b m (snd pa)) a) stored)).
Proof.
  induction stored as [|[p algos] stored IH]; intros H; cbn [filter snd]; [constructor|].
  assert (IH' := IH (fun q al Hq => H q al (or_intror Hq))).
  destruct (champion larger (sel affordb b m algos) a) eqn:C; cbn [length].
  - pose proof C as W. apply champion_wins in W. destruct W as (s & W).
    apply (vi_won larger b m a p algos stored (sel affordb b m algos) s); [apply (H p); left; reflexivity | exact W | exact IH'].
  - apply (vi_lost larger b m a p algos stored (sel affordb b m algos)); [apply (H p); left; reflexivity | | exact IH'].
    intros s W. assert (champion larger (sel affordb b m algos) a = true) by (apply champion_wins; eauto). congruence.
Qed.

Lemma bm_leb_total a b : bm_leb a b = false -> bm_leb b a = true.
Proof.
  unfold bm_leb. destruct a as [x s], b as [y t]. cbn [fst snd].
  rewrite Bool.orb_false_iff, Bool.orb_true_iff, Bool.andb_true_iff, Bool.andb_false_iff, Z.ltb_ge, Z.ltb_lt, Z.eqb_eq, Z.eqb_neq.
  intros [H1 [H2|H2]]; [left; lia|]. destruct (Z.eq_dec y x); [right|left; lia]. split; [assumption|].
  destruct (str_leb_total t s) as [H|H]; [exact H | congruence].
Qed.
Lemma bm_leb_trans a b c : bm_leb a b = true -> bm_leb b c = true -> bm_leb a c = true.
Proof.
  unfold bm_leb. destruct a as [x s], b as [y t], c as [z u]. cbn [fst snd].
  rewrite !Bool.orb_true_iff, !Bool.andb_true_iff, !Z.ltb_lt, !Z.eqb_eq.
  intros [H1|[H1 H2]] [H3|[H3 H4]]; try (left; lia). right. split; [lia|]. eapply str_leb_trans; eauto.
Qed.

Lemma bm_sorted l : NoDup l -> StronglySorted before (stable_sort bm_leb l).
Proof.
  intros N. assert (P : NoDup (stable_sort bm_leb l)).
  { eapply Permutation_NoDup; [apply Permutation_sym, stable_sort_perm | exact N]. }
  assert (S : StronglySorted (fun x y => bm_leb x y = true) (stable_sort bm_leb l)).
  { apply (stable_sort_sorted _ (fun _ => True)); [intros; apply bm_leb_total; assumption | intros; eapply bm_leb_trans; eassumption | apply Forall_forall; auto]. }
  revert P S. generalize (stable_sort bm_leb l). intros k P S. induction S as [|x k S IH F]; constructor.
  - inversion P; subst. auto.
  - inversion P as [|? ? P1 P2]; subst. rewrite Forall_forall in *. intros y Hy. specialize (F y Hy).
    unfold bm_leb in F. unfold before. rewrite Bool.orb_true_iff, Bool.andb_true_iff, Z.ltb_lt, Z.eqb_eq in F.
    destruct F as [F|[F1 F2]]; [left; exact F|right]. repeat split; auto. intros E. apply P1.
    replace x with y; [exact Hy|]. destruct x, y; cbn in *; congruence.
Qed.

Section Details.
  Variables (boot_size : nat) (randint : string * string * string * Z -> nat -> nat -> nat -> nat).
  Hypothesis boot_pos : 1 <= boot_size.
  Hypothesis draws : forall c, fair (randint c).

  Lemma board_scored stored p algos b m : tidy_board stored -> In (p, algos) stored -> best_func m <> None ->
    scored_at in_budget b m algos (sel affordb b m algos).
  Proof.
    intros [_ T] H B. destruct (T p algos H) as [_ Ta]. apply sel_scored; [| |exact B].
    - intros algo rs Hr. destruct (Ta algo rs Hr) as [N G]. split; [exact N|]. intros b0 an Hb. apply G, Hb.
    - intros algo rs an Hr Hb. destruct (Ta algo rs Hr) as [N G]. destruct (G b an Hb) as [F _].
      destruct (validate_eq boot_size randint boot_pos draws (p, algo, m, b) b an F) as (_ & _ & _ & _ & X). exact X.
  Qed.

  Lemma details_ok stored : tidy_board stored ->
    exists lines, details boot_size randint stored = Some lines /\ details_report stored lines.
  Proof.
    intros T. pose proof T as [N Ta].
    unfold details. rewrite details_problems_eq; auto.
    2:{ intros p algos algo rs b an H1 H2 H3. destruct (Ta p algos H1) as [_ X]. destruct (X algo rs H2) as [_ Y]. apply (Y b an H3). }
    set (scoring := fold_left (ins pbm_eqb) (board_e stored) []).
    assert (Ns : NoDup (map fst scoring)) by (apply ins_nodup; [exact pbm_eqb_ok | constructor]).
    assert (Ks : forall p b m, In (p, (b, m)) (map fst scoring) <-> exists algos, In (p, algos) stored /\ sel affordb b m algos <> []).
    { intros p b m. unfold scoring. rewrite (ins_keys pbm_eqb pbm_eqb_ok). rewrite board_keys. cbn. tauto. }
    assert (Gs : forall p algos b m, In (p, algos) stored -> get pbm_eqb [] scoring (p, (b, m)) = sel affordb b m algos).
    { intros p algos b m H. unfold scoring. rewrite (ins_get pbm_eqb pbm_eqb_ok). cbn [get app]. apply board_sel; assumption. }
    assert (Es : forall p b m scores, In ((p, (b, m)), scores) scoring -> exists algos, In (p, algos) stored /\
               scores = sel affordb b m algos /\ scores <> []).
    { intros p b m scores H. assert (K : In (p, (b, m)) (map fst scoring)) by (apply in_map_iff; exists ((p, (b, m)), scores); auto).
      apply Ks in K. destruct K as (algos & K1 & K2). exists algos. split; [exact K1|].
      assert (scores = sel affordb b m algos); [|split; congruence].
      rewrite <- (Gs p algos b m K1). symmetry. apply (get_in pbm_eqb [] pbm_eqb_ok); assumption. }
    destruct (details_winners_ok scoring []) as (c & Ew & Nc & Tc & Kc & Vc).
    { intros [p [b m]] scores H. destruct (Es p b m scores H) as (algos & H1 & H2 & H3). split; [|exact H3]. cbn [snd].
      subst scores. destruct (sel_best _ _ _ _ H3) as (lg & ->). discriminate. }
    { constructor. }
    { intros k. split; constructor. }
    unfold counter in *. rewrite Ew.
    eexists. split; [reflexivity|].
    match goal with |- details_report _ ?l => set (lines := l) end.
    assert (Ef : map fst lines = stable_sort bm_leb (map fst c)) by (unfold lines; rewrite map_map; apply map_id).
    split; [|split].
    - rewrite Ef. apply bm_sorted, Nc.
    - intros b m. rewrite Ef, stable_sort_In, Kc. split.
      + intros [[]|(p & H)]. apply Ks in H. destruct H as (algos & H1 & H2). destruct (sel_best _ _ _ _ H2) as (lg & B).
        split; [exists lg, (winner_tolerance m); apply ranked_iff; auto|].
        exists p, algos, (sel affordb b m algos). split; [exact H1|]. split; [|exact H2].
        apply (board_scored stored p); [exact T | exact H1 | congruence].
      + intros [(lg & tol & R) (p & algos & scores & H1 & H2 & H3)]. right. exists p. apply Ks. exists algos. split; [exact H1|].
        apply ranked_iff in R. destruct R as [B _].
        pose proof (board_scored stored p algos b m T H1 ltac:(congruence)) as H4.
        pose proof (scored_at_names _ _ _ _ _ _ H2 H4) as E. intros C. rewrite C in E. destruct scores; [congruence | discriminate E].
    - intros b m line lg tol H R. apply ranked_iff in R. destruct R as [B _].
      apply in_map_iff in H. destruct H as (k & E & H). injection E as Ek El. subst k line.
      exists (value (get bm_eqb [] c (b, m))). split; [|apply ranking_line_ok, Tc].
      intros a. rewrite (Vc (b, m) lg a B). cbn [get value plus].
      replace (length _) with (length (filter (fun pa => champion lg (sel affordb b m (snd pa)) a) stored)).
      { apply victories_count. intros p algos Hp. apply (board_scored stored p); [exact T | exact Hp | congruence]. }
      rewrite <- (map_length fst (filter _ stored)), <- (map_length (fun e => fst (fst e)) (filter _ scoring)).
      apply Permutation_length, NoDup_Permutation.
      + clear - N. induction stored as [|x st IH]; [constructor|]. cbn [map] in N. inversion N; subst. cbn [filter].
        destruct (champion _ _ _); [|auto]. cbn [map]. constructor; [|auto].
        intros C. apply in_map_iff in C. destruct C as (y & Ey & C). apply filter_In in C. destruct C as [C _].
        match goal with X : ~ In _ _ |- _ => apply X end. rewrite <- Ey. apply in_map, C.
      + clear - Ns. induction scoring as [|x st IH]; [constructor|]. cbn [map] in Ns. inversion Ns as [|? ? N1 N2]; subst. cbn [filter].
        destruct (bm_eqb (snd (fst x)) (b, m)) eqn:Ek; cbn [andb]; [|auto]. destruct (champion _ _ _); [|auto]. cbn [map]. constructor; [|auto].
        intros C. apply in_map_iff in C. destruct C as (y & Ey & C). apply filter_In in C. destruct C as [C1 C2].
        apply Bool.andb_true_iff in C2. destruct C2 as [C2 _]. apply bm_eqb_ok in Ek, C2.
        apply N1. replace (fst x) with (fst y); [apply in_map, C1|]. destruct (fst x), (fst y). cbn in *. congruence.
      + intros p. rewrite !in_map_iff. split.
        * intros ([q algos] & <- & X). apply filter_In in X. destruct X as [X1 X2]. cbn [snd fst] in *.
          exists ((q, (b, m)), sel affordb b m algos). split; [reflexivity|]. apply filter_In. split.
          -- rewrite <- (Gs q algos b m X1). apply (in_get pbm_eqb [] pbm_eqb_ok). apply Ks. exists algos. split; [exact X1|].
             intros C. rewrite C in X2. discriminate X2.
          -- cbn [fst snd]. rewrite X2, Bool.andb_true_r. apply bm_eqb_ok. reflexivity.
        * intros ([[q k] scores] & <- & X). apply filter_In in X. destruct X as [X1 X2]. cbn [fst snd] in *.
          apply Bool.andb_true_iff in X2. destruct X2 as [X2 X3]. apply bm_eqb_ok in X2. subst k.
          destruct (Es q b m scores X1) as (algos & H1 & -> & H3). exists (q, algos). split; [reflexivity|].
          apply filter_In. split; assumption.
  Qed.
End Details.
