(** Proofs for C120-C122. *)
From Coq Require Import QArith String List.
From Verif Require Import Spec Base DomModel DomProofs SortModel SortProofs MetModel MetProofs PyStr PoolModel PoolSpec.
Local Open Scope list_scope. Local Open Scope nat_scope.

Lemma key_eqb_spec a b : key_eqb a b = true <-> a = b.
Proof.
  destruct a as (a & i), b as (b & j). unfold key_eqb. cbn. rewrite andb_true_iff, String.eqb_eq, Nat.eqb_eq.
  split; [intros (-> & ->); reflexivity|intros E; injection E as -> ->; auto].
Qed.
Lemma key_dec (a b : key) : {a = b} + {a <> b}.
Proof. destruct (key_eqb a b) eqn:E; [left; apply key_eqb_spec; exact E|right; intros ->]. assert (K := proj2 (key_eqb_spec b b) eq_refl). congruence. Qed.
Lemma key_eqb_refl a : key_eqb a a = true.
Proof. apply key_eqb_spec. reflexivity. Qed.
Lemma key_eqb_neq a b : a <> b -> key_eqb a b = false.
Proof. intros H. destruct (key_eqb a b) eqn:E; [|reflexivity]. apply key_eqb_spec in E. contradiction. Qed.

Lemma find_put_same {A} k (a : A) d : find k (put k a d) = Some a.
Proof.
  induction d as [|(k' & a') d IH]; cbn; [rewrite key_eqb_refl; reflexivity|].
  destruct (key_eqb k k') eqn:E; cbn; rewrite E; [reflexivity|exact IH].
Qed.
Lemma find_put_other {A} k k' (a : A) d : k <> k' -> find k (put k' a d) = find k d.
Proof.
  intros N. induction d as [|(k0 & a0) d IH]; cbn; [rewrite (key_eqb_neq k k' N); reflexivity|].
  destruct (key_eqb k' k0) eqn:E; cbn.
  - apply key_eqb_spec in E. subst k0. rewrite (key_eqb_neq k k' N). reflexivity.
  - destruct (key_eqb k k0); [reflexivity|exact IH].
Qed.
Lemma find_some_in {A} k (a : A) d : find k d = Some a -> In k (map fst d).
Proof.
  induction d as [|(k0 & a0) d IH]; cbn; [discriminate|]. destruct (key_eqb k k0) eqn:E; [|auto].
  apply key_eqb_spec in E. subst. auto.
Qed.
Lemma find_none_in {A} k (d : list (key * A)) : find k d = None -> ~ In k (map fst d).
Proof.
  induction d as [|(k0 & a0) d IH]; cbn; [tauto|]. destruct (key_eqb k k0) eqn:E; [discriminate|]. intros H [->|K].
  - rewrite key_eqb_refl in E. discriminate.
  - exact (IH H K).
Qed.
Lemma put_keys {A} k (a : A) d : map fst (put k a d) = if existsb (key_eqb k) (map fst d) then map fst d else map fst d ++ [k].
Proof.
  induction d as [|(k0 & a0) d IH]; cbn; [reflexivity|]. destruct (key_eqb k k0); cbn; [reflexivity|]. rewrite IH.
  destruct (existsb _ _); reflexivity.
Qed.
Lemma existsb_key k l : existsb (key_eqb k) l = true <-> In k l.
Proof.
  rewrite existsb_exists. split; [intros (x & Hx & E); apply key_eqb_spec in E; subst; exact Hx|].
  intros H. exists k. split; [exact H|apply key_eqb_refl].
Qed.
Lemma nodup_snoc {A} (l : list A) a : NoDup l -> ~ In a l -> NoDup (l ++ [a]).
Proof.
  intros H N. apply (Permutation_NoDup (l := a :: l)); [apply Permutation_cons_append|]. constructor; assumption.
Qed.
Lemma put_nodup {A} k (a : A) d : NoDup (map fst d) -> NoDup (map fst (put k a d)).
Proof.
  intros H. rewrite put_keys. destruct (existsb (key_eqb k) (map fst d)) eqn:E; [exact H|].
  apply nodup_snoc; [exact H|]. intros Hx. apply existsb_key in Hx. congruence.
Qed.

Lemma vec_eqb_eq a b : vec_eqb a b = true <-> a = b.
Proof. unfold vec_eqb. destruct (list_eq_dec Z.eq_dec a b); split; congruence. Qed.
Lemma vecs_eqb_eq a : forall b, vecs_eqb a b = true <-> a = b.
Proof.
  induction a as [|x a IH]; intros [|y b]; cbn; try (split; congruence).
  rewrite andb_true_iff, vec_eqb_eq, IH. split; [intros (-> & ->); reflexivity|intros E; injection E; auto].
Qed.
Lemma lists_eqb_eq a : forall b, lists_eqb a b = true <-> a = b.
Proof.
  induction a as [|x a IH]; intros [|y b]; cbn; try (split; congruence).
  rewrite andb_true_iff, vecs_eqb_eq, IH. split; [intros (-> & ->); reflexivity|intros E; injection E; auto].
Qed.
Lemma entries_raw a : forall ls, entries_eqb a (map Raw ls) = true -> a = map Raw ls.
Proof.
  induction a as [|x a IH]; intros [|l ls]; cbn; try congruence.
  rewrite andb_true_iff. intros (E & H). destruct x as [x|x]; cbn in E; [|discriminate]. apply lists_eqb_eq in E. subst. f_equal. auto.
Qed.
Lemma entries_raw_refl ls : entries_eqb (map Raw ls) (map Raw ls) = true.
Proof. induction ls as [|l ls IH]; cbn; [reflexivity|]. rewrite IH, andb_true_r. apply lists_eqb_eq. reflexivity. Qed.
Lemma pool_refl p : entry_eqb (Pool p) (Pool p) = true.
Proof.
  cbn. unfold sets_eqb. assert (H : forallb (fun v => vec_in v p) p = true); [|rewrite H; reflexivity].
  apply forallb_forall. intros v Hv. apply vec_in_In. exact Hv.
Qed.

Local Notation idv := (fun v : vec => v).
Section Pools.
  Variable ID : Type.
  Variable id_eqb : ID -> ID -> bool.
  Hypothesis id_spec : forall i j, id_eqb i j = true <-> i = j.
  Notation result := (ID * (key * list vec))%type.
  Notation rivals := (rivals ID).
  Notation loaded rs := (fold_left (append_result ID) rs []).

  Lemma rivals_snoc rs (r : result) k :
    rivals (rs ++ [r]) k = rivals rs k ++ (if key_eqb (fst (snd r)) k then [snd (snd r)] else []).
  Proof.
    unfold PoolSpec.rivals. change same_run with key_eqb. rewrite filter_app, map_app. cbn. destruct (key_eqb _ k); reflexivity.
  Qed.
  Lemma rivals_in rs i k f : In (i, (k, f)) rs -> In f (rivals rs k).
  Proof.
    intros H. unfold PoolSpec.rivals. apply (in_map (fun r : result => snd (snd r)) _ (i, (k, f))). apply filter_In. split; [exact H|apply key_eqb_refl].
  Qed.
  Lemma loaded_find rs k : find k (loaded rs) = match rivals rs k with [] => None | l => Some (Raw l) end.
  Proof.
    induction rs as [|(i & (k0 & f)) rs IH] using rev_ind; [reflexivity|].
    rewrite fold_left_app, rivals_snoc. cbn [fold_left fst snd]. unfold append_result at 1.
    destruct (key_eqb k0 k) eqn:E.
    - apply key_eqb_spec in E. subst k0. rewrite IH. destruct (rivals rs k) as [|l ls]; rewrite find_put_same; reflexivity.
    - assert (N : k <> k0) by (intros ->; rewrite key_eqb_refl in E; discriminate). rewrite app_nil_r, <- IH.
      destruct (find k0 (loaded rs)) as [[l|p]|]; [apply find_put_other; exact N|reflexivity|apply find_put_other; exact N].
  Qed.
  Lemma append_keys c (r : result) :
    map fst (append_result ID c r) = if existsb (key_eqb (fst (snd r))) (map fst c) then map fst c else map fst c ++ [fst (snd r)].
  Proof.
    destruct r as (i & (k & f)). cbn [fst snd append_result]. destruct (find k c) as [[l|p]|] eqn:E; try apply put_keys.
    assert (H : existsb (key_eqb k) (map fst c) = true) by (apply existsb_key; eapply find_some_in; exact E). rewrite H. reflexivity.
  Qed.
  Lemma loaded_nodup rs : NoDup (map fst (loaded rs)).
  Proof.
    induction rs as [|r rs IH] using rev_ind; [constructor|]. rewrite fold_left_app. cbn [fold_left]. rewrite append_keys.
    destruct (existsb _ _) eqn:E; [exact IH|]. apply nodup_snoc; [exact IH|].
    intros Hx. apply existsb_key in Hx. congruence.
  Qed.
  Lemma loaded_keys rs k : In k (map fst (loaded rs)) <-> rivals rs k <> [].
  Proof.
    pose proof (loaded_find rs k) as H. destruct (rivals rs k) as [|l ls].
    - split; [|congruence]. intros K. apply find_none_in in H. contradiction.
    - split; [discriminate|]. intros _. eapply find_some_in. exact H.
  Qed.
  Lemma same_keys rs rs' : map (fun r : result => fst (snd r)) rs = map (fun r : result => fst (snd r)) rs' ->
    map fst (loaded rs) = map fst (loaded rs').
  Proof.
    assert (G : forall rs rs' c c', map (fun r : result => fst (snd r)) rs = map (fun r : result => fst (snd r)) rs' -> map fst c = map fst c' ->
      map fst (fold_left (append_result ID) rs c) = map fst (fold_left (append_result ID) rs' c')).
    { clear. intros rs. induction rs as [|r rs IH]; intros [|r' rs'] c c' E Ec; cbn in E; try discriminate; [exact Ec|].
      injection E as E1 E2. cbn [fold_left]. apply IH; [exact E2|]. rewrite !append_keys, E1, Ec. reflexivity. }
    intros E. apply G; [exact E|reflexivity].
  Qed.
  Lemma solutions_loaded rs :
    problem_solutions (loaded rs) = map Raw (map (rivals rs) (problem_keys (loaded rs))).
  Proof.
    unfold problem_solutions. rewrite map_map. apply map_ext. intros k. rewrite loaded_find. destruct (rivals rs k); reflexivity.
  Qed.
  Lemma rivals_count rs : forall ks, NoDup ks -> (forall r, In r rs -> In (fst (snd r)) ks) ->
    list_sum (map (fun k => length (rivals rs k)) ks) = length rs.
  Proof.
    induction rs as [|r rs IH] using rev_ind; intros ks ND H.
    - clear. unfold list_sum. induction ks as [|k ks IH]; [reflexivity|]. cbn [map fold_right length]. exact IH.
    - rewrite app_length. cbn [length]. rewrite <- (IH ks ND) by (intros x Hx; apply H; apply in_or_app; auto).
      assert (Hr : In (fst (snd r)) ks) by (apply H; apply in_or_app; right; left; reflexivity). clear - ND Hr.
      unfold list_sum. induction ks as [|k ks IH]; [destruct Hr|]. inversion ND as [|? ? N ND']. subst. cbn [map fold_right].
      rewrite rivals_snoc, app_length. destruct Hr as [->|Hr].
      + rewrite key_eqb_refl. cbn [length].
        assert (E : map (fun k => length (rivals (rs ++ [r]) k)) ks = map (fun k => length (rivals rs k)) ks).
        { apply map_ext_in. intros k Hk. rewrite rivals_snoc, (key_eqb_neq (fst (snd r)) k); [rewrite app_nil_r; reflexivity|].
          intros <-. contradiction. }
        rewrite E. lia.
      + rewrite (IH ND' Hr), (key_eqb_neq (fst (snd r)) k); [cbn; lia|]. intros <-. contradiction.
  Qed.
  Lemma count_loaded rs : list_sum (map (@length _) (map (rivals rs) (problem_keys (loaded rs)))) = length rs.
  Proof.
    rewrite map_map. apply rivals_count.
    - eapply Permutation_NoDup; [apply Permutation_sym, stable_sort_perm|apply loaded_nodup].
    - intros (i & (k & f)) Hr. apply stable_sort_In, loaded_keys. cbn. apply rivals_in in Hr. intros E. rewrite E in Hr. destruct Hr.
  Qed.
  Lemma same_rivals rs : forall rs', map (fun r : result => (fst r, fst (snd r))) rs = map (fun r : result => (fst r, fst (snd r))) rs' ->
    (forall k, rivals rs k = rivals rs' k) -> rs = rs'.
  Proof.
    induction rs as [|(i & (k & f)) rs IH]; intros [|(i' & (k' & f')) rs'] E H; cbn in E; try discriminate; [reflexivity|].
    injection E as <- <- E. assert (Hk : f :: rivals rs k = f' :: rivals rs' k).
    { specialize (H k). unfold PoolSpec.rivals in *. change same_run with key_eqb in *. cbn [filter fst snd] in H. rewrite key_eqb_refl in H. exact H. }
    injection Hk as <- Hk. f_equal. apply IH; [exact E|]. intros k0. specialize (H k0). unfold PoolSpec.rivals in *. change same_run with key_eqb in *. cbn [filter fst snd] in H.
    destruct (key_eqb k k0) eqn:E0; [|exact H]. cbn [map] in H. injection H. auto.
  Qed.

  (** Equal lists of solutions mean equal results if nothing was removed. *)
  Lemma same_solutions m old new : valid_results ID m old -> valid_results ID m new -> grows ID old new ->
    problem_solutions (loaded old) = problem_solutions (loaded new) -> old = new.
  Proof.
    intros (N1 & _) (N2 & _) (I & G) E. rewrite !solutions_loaded in E.
    apply (f_equal (map (fun e => match e with Raw l => l | Pool _ => [] end))) in E. rewrite !(map_map Raw) in E.
    rewrite !map_id in E.
    assert (L : length old = length new) by (rewrite <- (count_loaded old), <- (count_loaded new), E; reflexivity).
    assert (I' : incl (map fst new) (map fst old)) by (apply NoDup_length_incl; [exact N1|rewrite !map_length; lia|exact I]).
    specialize (G I'). apply same_rivals; [exact G|].
    assert (K : problem_keys (loaded old) = problem_keys (loaded new)).
    { unfold problem_keys. f_equal. apply same_keys.
      apply (f_equal (map (@snd ID key))) in G. rewrite !map_map in G. cbn in G. exact G. }
    rewrite K in E. intros k. destruct (in_dec key_dec k (problem_keys (loaded new))) as [Hk|Hk].
    - clear - E Hk. revert E. generalize dependent (problem_keys (loaded new)). intros ks. induction ks as [|k0 ks IH]; intros Hk E; [destruct Hk|].
      cbn in E. injection E as E1 E2. destruct Hk as [->|Hk]; auto.
    - assert (A : forall rs, ~ In k (problem_keys (loaded rs)) -> rivals rs k = []).
      { intros rs H. destruct (rivals rs k) eqn:Er; [reflexivity|]. exfalso. apply H. apply stable_sort_In, loaded_keys. rewrite Er. discriminate. }
      rewrite (A new Hk). apply A. rewrite K. exact Hk.
  Qed.

  Lemma grows_refl rs : grows ID rs rs.
  Proof. split; [apply incl_refl|reflexivity]. Qed.
  Lemma grows_trans a b c : grows ID a b -> grows ID b c -> grows ID a c.
  Proof.
    intros (I1 & G1) (I2 & G2). split; [eapply incl_tran; eassumption|]. intros I. rewrite G1, G2; [reflexivity| |].
    - eapply incl_tran; eassumption.
    - eapply incl_tran; eassumption.
  Qed.

  Lemma recompute_ok rs : forall keys nd, (forall k, In k keys -> rivals rs k <> []) -> NoDup (map fst nd) ->
    exists nd', recompute (loaded rs) keys nd = Some nd' /\ NoDup (map fst nd') /\
      forall k, (In k keys -> find k nd' = Some (common_front (rivals rs k))) /\ (~ In k keys -> find k nd' = find k nd).
  Proof.
    induction keys as [|k keys IH]; intros nd Hk ND; cbn [recompute].
    - exists nd. split; [reflexivity|]. split; [exact ND|]. intros k. split; [intros []|reflexivity].
    - rewrite loaded_find. destruct (rivals rs k) as [|l ls] eqn:E; [exfalso; apply (Hk k); [left; reflexivity|exact E]|].
      cbn [nondominated_of]. rewrite <- E.
      destruct (IH (put k (common_front (rivals rs k)) nd)) as (nd' & E1 & N1 & F1);
        [intros j Hj; apply Hk; right; exact Hj|apply put_nodup; exact ND|].
      exists nd'. split; [exact E1|]. split; [exact N1|]. intros j. destruct (F1 j) as (F2 & F3).
      destruct (in_dec key_dec j keys) as [Hj|Hj].
      + split; [intros _; exact (F2 Hj)|]. intros H. exfalso. apply H. right. exact Hj.
      + split.
        * intros [<-|H]; [rewrite (F3 Hj); apply find_put_same|contradiction].
        * intros H. rewrite (F3 Hj). apply find_put_other. intros ->. apply H. left. reflexivity.
  Qed.

  Lemma update_find nd : NoDup (map fst nd) -> forall c k,
    find k (update c nd) = match find k nd with Some p => Some (Pool p) | None => find k c end.
  Proof.
    unfold update. induction nd as [|(k0 & p) nd IH]; intros ND c k; cbn [fold_left find fst snd]; [reflexivity|].
    inversion ND as [|? ? N ND']. subst. cbn [fst snd] in N. rewrite (IH ND'). destruct (key_eqb k k0) eqn:E.
    - apply key_eqb_spec in E. subst k0. destruct (find k nd) eqn:F; [apply find_some_in in F; contradiction|]. apply find_put_same.
    - destruct (find k nd); [reflexivity|]. apply find_put_other. intros ->. rewrite key_eqb_refl in E. discriminate.
  Qed.

  Section Run.
  Variable m : nat.

  (** The files on disk were made from the results [old]. *)
  Definition made_from (old : list result) (d : disk ID) : Prop :=
    valid_results ID m old /\
    (exists nd, file d = Stored (problem_solutions (loaded old)) nd /\ NoDup (map fst nd) /\
       forall k, rivals old k <> [] -> find k nd = Some (common_front (rivals old k))) /\
    forall i q ps, In (i, (q, ps)) (metrics d) ->
      exists k f, In (i, (k, f)) old /\ ps = Pool (common_front (rivals old k)) /\ pdi_of_result f (rivals old k) = Some q.
  Definition disk_ok (d : disk ID) : Prop :=
    valid_results ID m (results d) /\
    (file d = Missing \/ exists old, made_from old d /\ grows ID old (results d)).

  Lemma preload_ok d : disk_ok d ->
    exists d' c, preload ID d [] = Some (d', c) /\ results d' = results d /\ made_from (results d) d' /\
      forall k, rivals (results d) k <> [] -> find k c = Some (Pool (common_front (rivals (results d) k))).
  Proof.
    intros (V & H). unfold preload, filter_non_dominated_in_cache. set (rs := results d) in *.
    assert (Hkeys : forall k, In k (problem_keys (loaded rs)) <-> rivals rs k <> []).
    { intros k. unfold problem_keys. rewrite stable_sort_In. apply loaded_keys. }
    assert (R : forall nd, NoDup (map fst nd) -> exists nd', recompute (loaded rs) (problem_keys (loaded rs)) nd = Some nd' /\ NoDup (map fst nd') /\
              forall k, rivals rs k <> [] -> find k nd' = Some (common_front (rivals rs k))).
    { intros nd ND. destruct (recompute_ok rs (problem_keys (loaded rs)) nd) as (nd' & E & N & F); [intros k Hk; apply Hkeys; exact Hk|exact ND|].
      exists nd'. split; [exact E|]. split; [exact N|]. intros k Hk. apply F, Hkeys, Hk. }
    assert (Fresh : forall nd, NoDup (map fst nd) ->
      exists d' c, match recompute (loaded rs) (problem_keys (loaded rs)) nd with
                   | None => None
                   | Some nd' => Some ({| results := results (clear_old ID d); file := Stored (problem_solutions (loaded rs)) nd'; metrics := metrics (clear_old ID d) |},
                                       update (loaded rs) nd')
                   end = Some (d', c) /\ results d' = rs /\ made_from rs d' /\
        forall k, rivals rs k <> [] -> find k c = Some (Pool (common_front (rivals rs k)))).
    { intros nd ND. destruct (R nd ND) as (nd' & E & N & F). rewrite E. eexists. eexists. split; [reflexivity|]. split; [reflexivity|].
      split; [split; [exact V|split; [exists nd'; cbn; auto|intros i q ps []]]|].
      intros k Hk. rewrite update_find by exact N. rewrite (F k Hk). reflexivity. }
    destruct H as [-> | (old & (Vo & (nd & Ef & N & F) & M) & G)].
    - apply (Fresh []). constructor.
    - rewrite Ef. cbv zeta. fold rs. set (so := problem_solutions (loaded old)) in *.
      destruct (match so with [] => false | _ => entries_eqb so (problem_solutions (loaded rs)) end) eqn:Eq.
      + assert (Es : so = problem_solutions (loaded rs)).
        { rewrite (solutions_loaded rs) in Eq |- *. apply entries_raw. destruct so; [discriminate|exact Eq]. }
        pose proof (same_solutions m old rs Vo V G Es) as Eo. subst old.
        exists d, (update (loaded rs) nd). split; [|split; [reflexivity|split]].
        * destruct so as [|e l]; [discriminate|]. reflexivity.
        * split; [exact V|]. split; [|exact M]. exists nd. auto.
        * intros k Hk. rewrite update_find by exact N. rewrite (F k Hk). reflexivity.
      + destruct (Fresh nd N) as (d' & c & E & H). exists d', c. split; [|exact H]. rewrite <- E.
        destruct so as [|e l]; reflexivity.
  Qed.

  Lemma rivals_dim rs k : valid_results ID m rs -> all_dim m idv (concat (rivals rs k)).
  Proof.
    intros (_ & H) v Hv. apply in_concat in Hv. destruct Hv as (f & Hf & Hv). unfold PoolSpec.rivals in Hf. apply in_map_iff in Hf.
    destruct Hf as (r & <- & Hr). apply filter_In in Hr. exact (proj2 (H r (proj1 Hr)) v Hv).
  Qed.
  Lemma front_nonempty rs i k f : valid_results ID m rs -> In (i, (k, f)) rs -> common_front (rivals rs k) <> [].
  Proof.
    intros V H. pose proof (rivals_dim rs k V) as D.
    assert (N : concat (rivals rs k) <> []).
    { destruct (proj2 V _ H) as (N & _). cbn in N. destruct f as [|v f]; [congruence|]. intros E.
      assert (K : In v (concat (rivals rs k))) by (apply in_concat; exists (v :: f); split; [eapply rivals_in; exact H|left; reflexivity]).
      rewrite E in K. destruct K. }
    destruct (nd_nonempty m _ D N) as (x & Hx & Hn). intros E.
    assert (K : In x (common_front (rivals rs k))) by (apply (common_front_In m _ _ D); auto). rewrite E in K. destruct K.
  Qed.
  Lemma indicator_some rs i k f : valid_results ID m rs -> In (i, (k, f)) rs -> exists q, pdi_of_result f (rivals rs k) = Some q.
  Proof.
    intros V H. pose proof (front_nonempty rs i k f V H) as N. unfold pdi_of_result, pareto_dominance_indicator.
    destruct (common_front (rivals rs k)); [congruence|]. eexists. reflexivity.
  Qed.
  Lemma indicator_current rs i k f q : valid_results ID m rs -> In (i, (k, f)) rs -> pdi_of_result f (rivals rs k) = Some q ->
    current_indicator ID rs (i, (k, f)) q.
  Proof.
    intros V H E. pose proof (rivals_dim rs k V) as D. exists (common_front (rivals rs k)). cbn [fst snd]. split; [apply NoDup_nodup|].
    split; [eapply front_nonempty; eassumption|]. split; [intros v; apply (common_front_In m _ _ D)|].
    intros P HP. unfold pdi_of_result, pareto_dominance_indicator in E.
    assert (Df : all_dim m idv f) by (intros v Hv; exact (proj2 (proj2 V _ H) v Hv)).
    assert (Ef : filter (fun s => vec_in s (common_front (rivals rs k))) (filter_not_dominated (fun v : vec => v) f) = filter P f).
    { rewrite (filter_nd_spec idv m f (fun v => if in_dec (list_eq_dec Z.eq_dec) v (filter_not_dominated idv f) then true else false) Df).
      - rewrite filter_filter. apply filter_ext_in. intros v Hv. specialize (HP v Hv).
        destruct (in_dec (list_eq_dec Z.eq_dec) v (filter_not_dominated idv f)) as [I|I]; cbn [andb].
        + apply (filter_not_dominated_members _ idv m _ Df) in I. apply eq_true_iff_eq. rewrite HP, vec_in_In. tauto.
        + symmetry. apply not_true_is_false. rewrite HP. intros (K & _). apply I. apply (filter_not_dominated_members _ idv m _ Df). auto.
      - intros v Hv. pose proof (proj1 (filter_not_dominated_members _ idv m _ Df) v) as M.
        destruct (in_dec (list_eq_dec Z.eq_dec) v (filter_not_dominated idv f)) as [I|I]; split; try tauto; discriminate. }
    rewrite Ef in E. destruct (common_front (rivals rs k)); [discriminate|]. injection E as <-. reflexivity.
  Qed.

  Lemma stored_in i l x : stored_metric ID id_eqb i l = Some x -> In (i, x) l.
  Proof.
    induction l as [|(j & y) l IH]; cbn; [discriminate|]. destruct (id_eqb i j) eqn:E; [|auto].
    apply id_spec in E. subst j. intros K. injection K as ->. auto.
  Qed.

  (** During one evaluation, after its first request. *)
  Definition warm (d : disk ID) (c : cache) : Prop :=
    made_from (results d) d /\
    forall k, rivals (results d) k <> [] -> find k c = Some (Pool (common_front (rivals (results d) k))).

  Lemma indicator_ok d c r : (c = [] /\ disk_ok d) \/ warm d c -> In r (results d) ->
    exists d' c' q, indicator ID id_eqb d c r = Some (d', c', q) /\ results d' = results d /\ warm d' c' /\
      current_indicator ID (results d) r q.
  Proof.
    intros H Hr. destruct r as (i & (k & f)).
    assert (Hk : rivals (results d) k <> []).
    { intros E. apply rivals_in in Hr. rewrite E in Hr. destruct Hr. }
    assert (P : exists d1 c1, match find k c with Some _ => Some (d, c) | None => preload ID d c end = Some (d1, c1) /\
                 results d1 = results d /\ warm d1 c1).
    { destruct H as [(-> & Hd)|W].
      - cbn [find]. destruct (preload_ok d Hd) as (d' & c' & E & R & M & F). exists d', c'. split; [exact E|]. split; [exact R|].
        split; rewrite R; assumption.
      - exists d, c. rewrite (proj2 W k Hk). auto. }
    destruct P as (d1 & c1 & E & R & W). unfold indicator. cbv zeta. cbn [fst snd]. unfold cache in *. rewrite E. cbv beta iota zeta. rewrite <- R in *. clear R d H E c.
    destruct W as (M & F). rewrite (F k Hk). cbv beta iota. unfold get_metric. cbv beta iota.
    assert (V : valid_results ID m (results d1)) by apply M.
    destruct (stored_metric ID id_eqb i (metrics d1)) as [(q & ps)|] eqn:S.
    - apply stored_in in S. destruct (proj2 (proj2 M) i q ps S) as (k' & f' & I & -> & Q).
      assert (Ekf : (k', f') = (k, f)).
      { clear - V I Hr. destruct V as (N & _). revert N I Hr. generalize (results d1). intros l. induction l as [|(j & y) l IH]; intros N I Hr; [destruct I|].
        cbn in N. inversion N as [|? ? N1 N2]. subst. destruct I as [I|I], Hr as [Hr|Hr].
        - congruence.
        - injection I as -> ->. exfalso. apply N1. apply (in_map fst) in Hr. exact Hr.
        - injection Hr as -> ->. exfalso. apply N1. apply (in_map fst) in I. exact I.
        - auto. }
      injection Ekf as -> ->. rewrite pool_refl. exists d1, c1, q. split; [reflexivity|]. split; [reflexivity|]. split; [split; assumption|].
      apply indicator_current; assumption.
    - destruct (indicator_some _ _ _ _ V Hr) as (q & Q). unfold dominance_indicator. fold (pdi_of_result f (rivals (results d1) k)). rewrite Q.
      eexists. exists c1, q. split; [reflexivity|]. split; [reflexivity|]. split; [|apply indicator_current; assumption].
      split; cbn [results]; [|exact F]. destruct M as (_ & M1 & M2). split; [exact V|]. split; [exact M1|]. cbn [metrics].
      intros j q' ps [K|K]; [|eauto]. injection K as <- <- <-. exists k, f. auto.
  Qed.

  Lemma evaluate_with_ok rs : forall d c, (c = [] /\ disk_ok d) \/ warm d c -> incl rs (results d) ->
    exists d' qs, evaluate_with ID id_eqb d c rs = Some (d', qs) /\ results d' = results d /\ disk_ok d' /\
      Forall2 (current_indicator ID (results d)) rs qs.
  Proof.
    induction rs as [|r rs IH]; intros d c H I; cbn [evaluate_with].
    - exists d, []. split; [reflexivity|]. split; [reflexivity|]. split; [|constructor].
      destruct H as [(_ & H)|(M & _)]; [exact H|]. split; [apply M|right; exists (results d); split; [exact M|apply grows_refl]].
    - destruct (indicator_ok d c r H (I r (or_introl eq_refl))) as (d1 & c1 & q & E & R & W & Q). rewrite E.
      destruct (IH d1 c1 (or_intror W)) as (d2 & qs & E2 & R2 & D2 & F2); [rewrite R; intros x Hx; apply I; right; exact Hx|].
      rewrite E2. exists d2, (q :: qs). split; [reflexivity|]. split; [congruence|]. split; [exact D2|]. rewrite R in F2. constructor; assumption.
  Qed.

  Lemma reached_ok d : reached ID id_eqb m d -> disk_ok d.
  Proof.
    induction 1 as [rs V|d rs R (V0 & H) V G|d rs d' qs R H I E|d kept R (V & H)].
    - split; [exact V|left; reflexivity].
    - split; [exact V|]. cbn [results file]. destruct H as [H|(old & (Vo & M1 & M2) & G0)]; [left; exact H|right]. exists old.
      split; [split; [exact Vo|split; assumption]|]. eapply grows_trans; eassumption.
    - destruct (evaluate_with_ok rs d [] (or_introl (conj eq_refl H)) I) as (d1 & qs1 & E1 & _ & D & _). unfold evaluate in E. rewrite E in E1.
      injection E1 as -> ->. exact D.
    - split; [exact V|left; reflexivity].
  Qed.

  Lemma evaluate_current d rs : reached ID id_eqb m d -> incl rs (results d) ->
    exists d' qs, evaluate ID id_eqb d rs = Some (d', qs) /\ Forall2 (current_indicator ID (results d)) rs qs.
  Proof.
    intros R I. destruct (evaluate_with_ok rs d [] (or_introl (conj eq_refl (reached_ok d R))) I) as (d' & qs & E & _ & _ & F).
    exists d', qs. auto.
  Qed.
  End Run.
End Pools.
