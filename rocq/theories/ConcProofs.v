(** Proofs for C148: rely and guarantee. *)
Require Import String Ascii List Arith Lia Bool.
From Verif Require Import PyStr PyStrFacts IdModel FsModel FsSpec FsProofs FsHist ConcModel ConcSpec.
Import ListNotations.
Open Scope string_scope.

#[local] Arguments do_call : simpl never.

(** * File systems *)
Lemma prefixes_last : forall q p, In q (prefixes p) -> q <> p -> In q (prefixes (removelast p)).
Proof.
  intros q p H Hne. destruct (list_eq_dec string_dec p []) as [->|Hp]; [destruct H|].
  destruct (exists_last Hp) as (d & x & ->). rewrite removelast_last.
  apply prefixes_in in H. destruct H as [Hq (t & Ht)]. apply prefixes_in. split; [exact Hq|].
  destruct (list_eq_dec string_dec t []) as [->|T].
  - rewrite app_nil_r in Ht. congruence.
  - destruct (exists_last T) as (t' & y & ->). rewrite app_assoc in Ht. apply app_inj_tail in Ht. exists t'. tauto.
Qed.

Lemma last_prefix : forall p, removelast p <> [] -> In (removelast p) (prefixes p).
Proof.
  intros p H. destruct (list_eq_dec string_dec p []) as [->|Hp]; [now destruct H|].
  apply prefixes_in. split; [exact H|]. exists [last p ""]. now apply app_removelast_last.
Qed.

Definition parent_ok (s : fs) (p : path) : Prop := removelast p = [] \/ lookup s (removelast p) = Some Dir.

Lemma parent_is_dir_spec : forall s p, parent_is_dir s p = true <-> parent_ok s p.
Proof.
  intros s p. unfold parent_is_dir, parent_ok. destruct (removelast p) as [|x r]; [tauto|].
  split.
  - intro H. right. destruct (lookup s (x :: r)) as [[|b]|]; congruence.
  - intros [H|H]; [discriminate|]. now rewrite H.
Qed.

Lemma tree_prefixes : forall s p, tree s -> lookup s p = Some Dir -> forall q, In q (prefixes p) -> lookup s q = Some Dir.
Proof.
  intros s p T H q Hq. destruct (list_eq_dec string_dec q p) as [->|N]; [exact H|].
  exact (tr_parents _ T q p Dir Hq N H).
Qed.

Lemma tree_set : forall s p n, tree s -> parent_ok s p ->
  (n = Dir \/ forall q m, In p (prefixes q) -> q <> p -> lookup s q <> Some m) -> tree (set s p n).
Proof.
  intros s p n T P C. constructor.
  - intros q p' m Hq Hne Hl. rewrite lookup_set in *.
    assert (A : lookup s q = Some Dir \/ q = p).
    { destruct (path_eqb_spec p p') as [E|E].
      - subst p'. left. pose proof (prefixes_last q p Hq Hne) as Q. destruct P as [P|P].
        + rewrite P in Q. destruct Q.
        + exact (tree_prefixes s _ T P q Q).
      - left. exact (tr_parents _ T q p' m Hq Hne Hl). }
    destruct (path_eqb_spec p q) as [E|E].
    + subst q. destruct C as [->|C]; [reflexivity|]. exfalso.
      destruct (path_eqb_spec p p') as [E|E]; [congruence|]. exact (C p' m Hq (not_eq_sym E) Hl).
    + destruct A as [A|A]; [exact A|congruence].
  - apply keys_set. apply (tr_once _ T).
Qed.

Section Proc.
  Variable R : Type.
  Variable pickle : R -> string.
  Variable root : string.
  Variable s0 : fs.

  Notation lp := (loc_path root).
  Notation ld := (loc_dir root).

  Definition inv (s : fs) : Prop := usable root s /\ tree s.

  Lemma dir_not_file : forall s l q, inv s -> In q (prefixes (ld l)) -> is_file s q = false.
  Proof.
    intros s l q [U _] Hq. unfold is_file. destruct (lookup s q) as [[|b]|] eqn:E; try reflexivity.
    exfalso. exact (us_dirs _ _ U _ _ _ q b Hq E).
  Qed.

  Lemma usable_set_dir : forall s l p, usable root s -> In p (prefixes (ld l)) -> usable root (set s p Dir).
  Proof.
    intros s l p U Hp. constructor.
    - intros p' a i q b Hq. rewrite lookup_set. destruct (path_eqb_spec p q); [discriminate|].
      exact (us_dirs _ _ U p' a i q b Hq).
    - intro l'. rewrite lookup_set. destruct (path_eqb_spec p (lp l')) as [E|E].
      + exfalso. exact (loc_path_not_prefix root l' _ _ _ _ Hp E).
      + apply (us_files _ _ U).
  Qed.

  Lemma usable_set_file : forall s l b, usable root s -> usable root (set s (lp l) (File b)).
  Proof.
    intros s l b U. constructor.
    - intros p' a i q c Hq. rewrite lookup_set. destruct (path_eqb_spec (lp l) q) as [E|E].
      + exfalso. exact (loc_path_not_prefix root l _ _ _ _ Hq (eq_sym E)).
      + exact (us_dirs _ _ U p' a i q c Hq).
    - intro l'. rewrite lookup_set. destruct (path_eqb_spec (lp l) (lp l')); [discriminate|].
      apply (us_files _ _ U).
  Qed.

  Lemma inv_set_file : forall s l b, inv s -> lookup s (ld l) = Some Dir -> inv (set s (lp l) (File b)).
  Proof.
    intros s l b [U T] D. split; [now apply usable_set_file|]. apply tree_set; [exact T| |].
    - right. unfold loc_path. now rewrite removelast_result.
    - right. intros q m Hq Hne Hl. pose proof (tr_parents _ T _ _ _ Hq (not_eq_sym Hne) Hl) as X.
      exact (us_files _ _ U l X).
  Qed.

  (** * One process *)
  Variable all : list (location * R).

  Definition mine (l : location) : Prop := In l (map fst all).

  Definition holds (h : list (event R)) (s : fs) : Prop :=
    forall l, mine l -> lookup s (lp l) = stands R pickle root s0 l (outcome R h l).

  Definition made (s : fs) (ls : list location) : Prop :=
    forall l q, In l ls -> In q (prefixes (ld l)) -> lookup s q = Some Dir.

  Definition rely (s s' : fs) : Prop :=
    inv s' /\ (forall q, lookup s q = Some Dir -> lookup s' q = Some Dir) /\
    (forall l, mine l -> lookup s' (lp l) = lookup s (lp l)).

  Definition guar (s s' : fs) : Prop :=
    inv s' /\ (forall q, lookup s q = Some Dir -> lookup s' q = Some Dir) /\
    (forall q, lookup s' q = lookup s q \/ (exists l, mine l /\ q = lp l) \/
       (lookup s' q = Some Dir /\ exists l, mine l /\ In q (prefixes (ld l)))).

  Fixpoint ok (P : prog) (s : fs) : Prop :=
    match P with
    | Return e => e = None /\ holds (stored R all) s /\ made s (map fst all)
    | Call c k =>
        (exists h, got_to R all h /\ holds h s) /\
        forall s', rely s s' -> let r := do_call s' c in guar s' (fst r) /\ ok (k (snd r)) (fst r)
    end.

  Lemma rely_refl : forall s, inv s -> rely s s.
  Proof. intros s H. split; [exact H|]. split; auto. Qed.

  Lemma rely_trans : forall a b c, rely a b -> rely b c -> rely a c.
  Proof.
    intros a b c (_ & B & C) (A' & B' & C'). split; [exact A'|]. split; [auto|].
    intros l Hl. rewrite C', C; auto.
  Qed.

  Lemma holds_stable : forall h s s', rely s s' -> holds h s -> holds h s'.
  Proof. intros h s s' (_ & _ & C) H l Hl. rewrite C by exact Hl. now apply H. Qed.

  Lemma made_stable : forall ls s s', rely s s' -> made s ls -> made s' ls.
  Proof. intros ls s s' (_ & B & _) H l q Hl Hq. apply B. now apply (H l). Qed.

  Lemma ok_stable : forall P s s', rely s s' -> ok P s -> ok P s'.
  Proof.
    intros [e|c k] s s' Hr; cbn [ok].
    - intros (A & B & C). split; [exact A|]. split; [eapply holds_stable; eauto|eapply made_stable; eauto].
    - intros [(h & G & H) K]. split; [exists h; split; [exact G|eapply holds_stable; eauto]|].
      intros s'' Hr'. apply K. eapply rely_trans; eauto.
  Qed.

  Lemma guar_refl : forall s, inv s -> guar s s.
  Proof. intros s H. split; [exact H|]. split; auto. Qed.

  (** A program that makes directories on the way to [l]. *)
  Lemma mkdir_ok : forall h l, got_to R all h -> mine l ->
    forall fuel p parents exist_ok k s, In p (prefixes (ld l)) ->
    (parents = true -> (List.length p <= S fuel)%nat) -> (parents = false -> parent_ok s p) -> inv s -> holds h s ->
    (forall s', rely s s' -> lookup s' p = Some Dir -> ok (k None) s') ->
    (exist_ok = false -> forall s', rely s s' -> lookup s' p = Some Dir -> ok (k (Some Exists)) s') ->
    ok (mkdir fuel p parents exist_ok k) s.
  Proof.
    intros h l G M. induction fuel as [|fuel IH]; intros p parents exist_ok k s Hp Hlen Hpar Hi Hh K1 K2.
    all: assert (Hp0 : p <> []) by (apply prefixes_in in Hp; tauto).
    all: cbn [mkdir ok]; split; [exists h; auto|]; intros s' Hr; pose proof Hr as (Hi' & Hd & Hm).
    all: unfold do_call; destruct p as [|x p]; [congruence|]; set (pp := x :: p) in *.
    all: assert (NF : existsb (is_file s') (prefixes (removelast pp)) = false)
      by (apply not_true_is_false; intro X; apply existsb_exists in X; destruct X as (q & Hq & Hf);
          rewrite (dir_not_file s' l q Hi') in Hf; [discriminate|]; eapply prefixes_trans; [exact Hq|];
          eapply prefixes_trans; [|exact Hp]; apply last_prefix; intro E; rewrite E in Hq; destruct Hq).
    all: rewrite NF; destruct (lookup s' pp) as [n|] eqn:E.
    1,3: assert (n = Dir) as -> by (destruct n as [|b]; [reflexivity|exfalso; exact (us_dirs _ _ (proj1 Hi') _ _ _ pp b Hp E)]);
         cbn [fst snd]; split; [now apply guar_refl|];
         destruct exist_ok; [|now apply K2];
         cbn [ok]; split; [exists h; split; [exact G|now apply (holds_stable h s s')]|];
         intros s'' Hr'; unfold do_call; cbn [fst snd];
         pose proof Hr' as (Hi'' & Hd' & _);
         unfold pp at 1; rewrite (Hd' pp E);
         split; [now apply guar_refl|]; apply K1; [eapply rely_trans; eauto|now apply Hd'].
    all: destruct (parent_is_dir s' pp) eqn:P.
    1,3: apply parent_is_dir_spec in P; cbn [fst snd];
         assert (G' : guar s' (set s' pp Dir)) by
          (split; [split; [eapply usable_set_dir; [apply Hi'|exact Hp]|apply tree_set; [apply Hi'|exact P|now left]]|];
           split; [intros q Hq; rewrite lookup_set; now destruct (path_eqb pp q)|];
           intro q; rewrite lookup_set; destruct (path_eqb_spec pp q) as [<-|]; [|now left];
           right; right; split; [reflexivity|]; exists l; auto);
         split; [exact G'|]; apply K1; [|apply lookup_set_eq];
         apply (rely_trans s s' _ Hr); destruct G' as (A & B & _); split; [exact A|]; split; [exact B|];
         intros l' _; apply lookup_set_ne; intro X; exact (loc_path_not_prefix root l' _ _ _ _ Hp X).
    all: assert (NP : ~ parent_ok s' pp) by (intro X; apply parent_is_dir_spec in X; congruence);
         assert (parents = true) as -> by
          (destruct parents; [reflexivity|]; exfalso; apply NP; destruct (Hpar eq_refl) as [X|X]; [now left|right; now apply Hd]);
         assert (L : removelast pp <> []) by (intro X; apply NP; now left);
         cbn [fst snd]; split; [now apply guar_refl|].
    - exfalso. apply L. destruct p; [reflexivity|]. specialize (Hlen eq_refl). unfold pp in Hlen. cbn in Hlen. lia.
    - assert (Hl' : In (removelast pp) (prefixes (ld l))) by (eapply prefixes_trans; [now apply last_prefix|exact Hp]).
      assert (Len : List.length pp = S (List.length (removelast pp))).
      { rewrite (app_removelast_last "" Hp0) at 1. rewrite app_length. cbn. lia. }
      apply IH; auto.
      + intros _. specialize (Hlen eq_refl). lia.
      + discriminate.
      + now apply (holds_stable h s s').
      + intros s1 Hr1 E1. pose proof Hr1 as (Hi1 & _). assert (Hr2 : rely s s1) by (eapply rely_trans; eauto).
        apply IH; auto.
        * discriminate.
        * intros _. now right.
        * now apply (holds_stable h s s1).
        * intros s2 Hr3 E2. apply K1; [eapply rely_trans; eauto|exact E2].
        * intros X s2 Hr3 E2. apply K2; [exact X|eapply rely_trans; eauto|exact E2].
      + discriminate.
  Qed.

  Lemma write_at_end : forall b c, write_at (String.length b) c b = b ++ String c "".
  Proof. induction b as [|x b IH]; intro c; cbn; [reflexivity|]. now rewrite IH. Qed.

  Lemma take_app : forall a b, take (String.length a) (a ++ b) = a.
  Proof. unfold take. induction a as [|x a IH]; intro b; cbn; [now destruct b|]. now rewrite IH. Qed.

  Lemma outcome_snoc : forall h e l, outcome R (h ++ [e]) l = hear R l (outcome R h l) e.
  Proof. intros. unfold outcome. now rewrite fold_left_app. Qed.

  (** The state while [r] is written to [l]. *)
  Lemma holds_next : forall h l r b s s' m, holds h s -> lookup s' (lp l) = Some (File b) -> b = take m (pickle r) ->
    (forall l', mine l' -> l' <> l -> lookup s' (lp l') = lookup s (lp l')) ->
    holds (h ++ [event_of R (l, r) (InWrite m)]) s'.
  Proof.
    intros h l r b s s' m H L E O l' M. rewrite outcome_snoc. unfold hear. cbn [event_of e_loc e_reach e_result fst snd].
    destruct (location_eq_dec l l') as [<-|N].
    - cbn [stands]. now rewrite L, E.
    - rewrite O by auto. now apply H.
  Qed.

  Lemma holds_done : forall h l r s, holds (h ++ [event_of R (l, r) (InWrite (String.length (pickle r)))]) s ->
    holds (h ++ [event_of R (l, r) Finished]) s.
  Proof.
    intros h l r s H l' M. rewrite (H l' M), !outcome_snoc. unfold hear. cbn [event_of e_loc e_reach e_result fst snd].
    destruct (location_eq_dec l l') as [<-|N]; [|reflexivity]. cbn [stands]. do 2 f_equal. now apply take_all.
  Qed.

  Lemma holds_rewrite : forall h l r x y s, holds (h ++ [event_of R (l, r) (InWrite x)]) s -> forall s',
    lookup s' (lp l) = Some (File (take y (pickle r))) ->
    (forall l', mine l' -> l' <> l -> lookup s' (lp l') = lookup s (lp l')) ->
    holds (h ++ [event_of R (l, r) (InWrite y)]) s'.
  Proof.
    intros h l r x y s H s' L O l' M. rewrite outcome_snoc. unfold hear. cbn [event_of e_loc e_reach e_result fst snd].
    destruct (location_eq_dec l l') as [<-|N]; [exact L|].
    rewrite O by auto. rewrite (H l' M), outcome_snoc. unfold hear. cbn [event_of e_loc e_reach e_result fst snd].
    destruct (location_eq_dec l l'); [congruence|reflexivity].
  Qed.

  Lemma guar_file : forall s l b, inv s -> mine l -> lookup s (ld l) = Some Dir -> guar s (set s (lp l) (File b)).
  Proof.
    intros s l b I M D. split; [now apply inv_set_file|]. split.
    - intros q Hq. rewrite lookup_set. destruct (path_eqb_spec (lp l) q) as [<-|]; [|exact Hq].
      exfalso. exact (us_files _ _ (proj1 I) l Hq).
    - intro q. rewrite lookup_set. destruct (path_eqb_spec (lp l) q) as [<-|]; [|now left]. right. left. now exists l.
  Qed.

  Lemma other_file : forall s l l' n, l' <> l -> lookup (set s (lp l) n) (lp l') = lookup s (lp l').
  Proof. intros s l l' n H. apply lookup_set_ne. intro E. apply loc_path_inj in E. congruence. Qed.

  Lemma write_ok : forall h l r, mine l -> (forall m, got_to R all (h ++ [event_of R (l, r) (InWrite m)])) ->
    forall rest pre P s, pickle r = pre ++ rest -> inv s -> lookup s (ld l) = Some Dir ->
    lookup s (lp l) = Some (File pre) ->
    holds (h ++ [event_of R (l, r) (InWrite (String.length pre))]) s ->
    (forall s', inv s' -> lookup s' (ld l) = Some Dir -> holds (h ++ [event_of R (l, r) Finished]) s' ->
       (forall q, lookup s q = Some Dir -> lookup s' q = Some Dir) -> ok P s') ->
    ok (write_bytes (lp l) (String.length pre) rest P) s.
  Proof.
    intros h l r M G. induction rest as [|c rest IH]; intros pre P s E I D L H K; cbn [write_bytes].
    - rewrite app_nil_r_s in E. subst pre. apply K; auto. now apply holds_done.
    - cbn [ok]. split; [eexists; split; [apply G|exact H]|]. intros s' Hr. pose proof Hr as (I' & D' & M').
      unfold do_call. rewrite (M' l M), L. cbn [fst snd]. rewrite write_at_end.
      split; [apply guar_file; auto|].
      assert (Len : S (String.length pre) = String.length (pre ++ String c "")).
      { clear. induction pre as [|x pre IH]; cbn; [reflexivity|]. now rewrite <- IH. }
      rewrite Len. apply IH.
      + rewrite E. clear. induction pre as [|x pre IH]; cbn; [reflexivity|]. now rewrite <- IH.
      + apply inv_set_file; auto.
      + rewrite lookup_set_ne; [auto|]. intro X.
        exact (loc_path_not_prefix root l _ _ _ _ (prefixes_self (ld l) ltac:(discriminate)) (eq_sym X)).
      + apply lookup_set_eq.
      + apply (holds_rewrite h l r (String.length pre) _ s').
        * eapply holds_stable; eauto.
        * rewrite lookup_set_eq. do 2 f_equal.
          replace (pickle r) with ((pre ++ String c "") ++ rest) by
            (rewrite E; clear; induction pre as [|x pre IH]; cbn; [reflexivity|]; now rewrite <- IH).
          now rewrite take_app.
        * intros l' _ N. now apply other_file.
      + intros s2 A B C Q. apply K; auto. intros q Hq. apply Q. rewrite lookup_set.
        destruct (path_eqb_spec (lp l) q) as [<-|]; [|auto]. exfalso. apply D' in Hq.
        exact (us_files _ _ (proj1 I') l Hq).
  Qed.

  Lemma got_to_app : forall done rest h, got_to R rest h -> got_to R (done ++ rest) (stored R done ++ h).
  Proof. induction done as [|j done IH]; intros rest h H; cbn; [exact H|]. constructor. now apply IH. Qed.

  Lemma store_all_ok : forall rest done s, all = (done ++ rest)%list -> inv s -> holds (stored R done) s ->
    made s (map fst done) -> ok (store_all R pickle root rest) s.
  Proof.
    induction rest as [|[l r] rest IH]; intros done s E I H Md.
    - rewrite app_nil_r in E. subst done. cbn [store_all ok]. auto.
    - assert (M : mine l) by (unfold mine; rewrite E, map_app; apply in_or_app; right; now left).
      assert (G0 : got_to R all (stored R done)).
      { rewrite E. replace (stored R done) with (stored R done ++ [])%list by apply app_nil_r. apply got_to_app. constructor. }
      assert (Self : In (ld l) (prefixes (ld l))) by (apply prefixes_self; discriminate).
      assert (Save : forall s', rely s s' -> lookup s' (ld l) = Some Dir ->
        ok (save_file (result_path (ld l) (l_name l)) (pickle r)
              (fun e => match e with None => store_all R pickle root rest | Some e => Return (Some e) end)) s').
      { intros s' Hr D. unfold save_file. change (result_path (ld l) (l_name l)) with (lp l).
        cbn [ok]. split; [exists (stored R done); split; [exact G0|eapply holds_stable; eauto]|].
        intros s2 Hr2. assert (Hr3 : rely s s2) by (eapply rely_trans; eauto). pose proof Hr2 as (I2 & D2 & M2).
        unfold do_call.
        assert (NF : existsb (is_file s2) (prefixes (removelast (lp l))) = false).
        { unfold loc_path. rewrite removelast_result. apply not_true_is_false; intro X; apply existsb_exists in X.
          destruct X as (q & Hq & Hf). rewrite (dir_not_file s2 l q I2 Hq) in Hf. discriminate. }
        rewrite NF.
        assert (P : parent_is_dir s2 (lp l) = true).
        { apply parent_is_dir_spec. right. unfold loc_path. rewrite removelast_result. auto. }
        set (s3 := set s2 (lp l) (File "")).
        assert (X : (match lookup s2 (lp l) with
                     | Some Dir => (s2, Failed IsDirectory)
                     | Some (File _) => (s3, Done)
                     | None => if parent_is_dir s2 (lp l) then (s3, Done) else (s2, Failed NoEntry)
                     end) = (s3, Done)).
        { pose proof (us_files _ _ (proj1 I2) l) as N. destruct (lookup s2 (lp l)) as [[|b]|]; [congruence|reflexivity|].
          now rewrite P. }
        fold s3. rewrite X. cbn [fst snd]. split; [apply guar_file; auto|].
        assert (D3 : forall q, lookup s2 q = Some Dir -> lookup s3 q = Some Dir) by (apply (guar_file s2 l "" I2 M); auto).
        apply (write_ok (stored R done) l r M) with (pre := "").
        - intro m. rewrite E. apply got_to_app. constructor.
        - reflexivity.
        - apply inv_set_file; auto.
        - auto.
        - apply lookup_set_eq.
        - apply (holds_next _ _ _ "" s2); auto.
          + eapply holds_stable; eauto.
          + apply lookup_set_eq.
          + cbn. unfold take. now destruct (pickle r).
          + intros l' _ N. now apply other_file.
        - intros s4 I4 D4 H4 Q. apply (IH (done ++ [(l, r)])%list).
          + now rewrite <- app_assoc.
          + exact I4.
          + unfold stored. rewrite map_app. exact H4.
          + rewrite map_app. intros l' q Hl Hq. apply in_app_or in Hl. destruct Hl as [Hl|[<-|[]]].
            * apply Q, D3. apply (made_stable (map fst done) s s2 Hr3 Md l' q Hl Hq).
            * exact (tree_prefixes s4 _ (proj2 I4) D4 q Hq). }
      cbn [store_all]. unfold store_prog. apply (mkdir_ok (stored R done) l G0 M); auto.
      discriminate.
  Qed.
End Proc.

(** * All processes *)
Section All.
  Variable R : Type.
  Variable pickle : R -> string.
  Variable root : string.
  Variable s0 : fs.
  Variable jobs : list (list (location * R)).
  Hypothesis Hu : usable root s0.
  Hypothesis Ht : tree s0.
  Hypothesis Ha : apart R jobs.

  Notation lp := (loc_path root).

  Record good (st : fs * list prog) : Prop := {
    g_inv : inv root (fst st);
    g_len : List.length (snd st) = List.length jobs;
    g_ok : forall i js P, nth_error jobs i = Some js -> nth_error (snd st) i = Some P -> ok R pickle root s0 js P (fst st);
    g_rest : forall q, lookup (fst st) q = lookup s0 q \/
      (exists l, In l (map fst (concat jobs)) /\ q = lp l) \/
      (lookup (fst st) q = Some Dir /\ exists l, In l (map fst (concat jobs)) /\ In q (prefixes (loc_dir root l)))
  }.

  Lemma good_start : good (s0, map (store_all R pickle root) jobs).
  Proof.
    constructor; cbn [fst snd].
    - split; assumption.
    - apply map_length.
    - intros i js P Hj HP. rewrite nth_error_map, Hj in HP. cbn in HP. injection HP as <-.
      apply (store_all_ok R pickle root s0 js js []); [reflexivity|split; assumption| |].
      + intros l _. reflexivity.
      + intros l q [].
    - intro q. now left.
  Qed.

  Lemma loc_in_concat : forall i js l, nth_error jobs i = Some js -> In l (map fst js) -> In l (map fst (concat jobs)).
  Proof.
    intros i js l H Hl. apply in_map_iff in Hl. destruct Hl as (x & <- & Hx). apply in_map_iff. exists x.
    split; [reflexivity|]. apply in_concat. exists js. split; [now apply nth_error_In in H|exact Hx].
  Qed.

  Lemma guar_rely : forall i j a b s s', i <> j -> nth_error jobs i = Some a -> nth_error jobs j = Some b ->
    inv root s -> guar R root a s s' -> rely R root b s s'.
  Proof.
    intros i j a b s s' N Hi Hj I (A & B & C). split; [exact A|]. split; [exact B|]. intros l Hl.
    destruct (C (lp l)) as [X|[(l' & M & X)|(_ & l' & M & X)]]; [exact X| |].
    - apply loc_path_inj in X. subst l'. exfalso. exact (Ha i j a b l N Hi Hj M Hl).
    - exfalso. exact (loc_path_not_prefix root l _ _ _ _ X eq_refl).
  Qed.

  Lemma nth_replace : forall {A} (l : list A) i x j, (i < List.length l)%nat ->
    nth_error (firstn i l ++ x :: skipn (S i) l) j = if Nat.eqb i j then Some x else nth_error l j.
  Proof.
    induction l as [|a l IH]; intros [|i] x [|j] H; cbn in *; try lia; try reflexivity. apply IH. lia.
  Qed.

  Lemma good_turn : forall st i, good st -> good (turn st i).
  Proof.
    intros st i G. unfold turn. destruct (nth_error (snd st) i) as [[e|c k]|] eqn:E; [exact G| |exact G].
    destruct G as [I Len Ok Rest].
    assert (Hi : (i < List.length (snd st))%nat) by (apply nth_error_Some; congruence).
    destruct (nth_error jobs i) as [js|] eqn:J; [|apply nth_error_None in J; lia].
    pose proof (Ok i js _ J E) as [_ K]. specialize (K (fst st) (rely_refl R root js (fst st) I)). cbv zeta in K.
    destruct (do_call (fst st) c) as [s' r]. cbn [fst snd] in K. destruct K as [G K].
    pose proof G as (I' & D' & C'). constructor; cbn [fst snd].
    - exact I'.
    - rewrite app_length. cbn [List.length]. rewrite firstn_length, skipn_length. lia.
    - intros j js' P Hj HP. rewrite nth_replace in HP by exact Hi. destruct (Nat.eqb_spec i j) as [<-|N].
      + injection HP as <-. rewrite J in Hj. injection Hj as <-. exact K.
      + apply (ok_stable R pickle root s0 js' P (fst st) s'); [eapply guar_rely; eauto|eapply Ok; eauto].
    - intro q. destruct (C' q) as [X|[(l & M & X)|(X & l & M & Y)]].
      + destruct (Rest q) as [Z|[Z|(Z & l & M & Y)]]; [left; congruence|right; left; exact Z|].
        right. right. split; [congruence|]. exists l. auto.
      + right. left. exists l. split; [eapply loc_in_concat; eauto|exact X].
      + right. right. split; [exact X|]. exists l. split; [eapply loc_in_concat; eauto|exact Y].
  Qed.

  Lemma good_run : forall schedule st, good st -> good (fold_left turn schedule st).
  Proof. induction schedule as [|i schedule IH]; intros st G; cbn [fold_left]; [exact G|]. apply IH. now apply good_turn. Qed.

  (** * Histories of all processes together *)
  Lemma got_to_in : forall js h e, got_to R js h -> In e h -> In (e_loc R e) (map fst js).
  Proof.
    intros js h e G. induction G as [|j rest x|j rest h G IH]; intro H; cbn in *.
    - contradiction.
    - destruct H as [<-|[]]. now left.
    - destruct H as [<-|H]; [now left|]. right. now apply IH.
  Qed.

  Lemma hear_none : forall l h w, (forall e, In e h -> e_loc R e <> l) -> fold_left (hear R l) h w = w.
  Proof.
    intros l. induction h as [|e h IH]; intros w H; cbn [fold_left]; [reflexivity|].
    rewrite IH by (intros; apply H; now right). unfold hear. destruct (location_eq_dec (e_loc R e) l) as [X|]; [|reflexivity].
    exfalso. exact (H e (or_introl eq_refl) X).
  Qed.
End All.

Section Merge.
  Variable R : Type.

  Lemma outcome_concat : forall jobs hs, apart R jobs -> Forall2 (got_to R) jobs hs ->
    (forall i js h l, nth_error jobs i = Some js -> nth_error hs i = Some h -> In l (map fst js) ->
       outcome R (concat hs) l = outcome R h l) /\
    (forall l, ~ In l (map fst (concat jobs)) -> outcome R (concat hs) l = Untouched).
  Proof.
    intros jobs hs A F. split.
    - assert (X : forall jobs hs w, apart R jobs -> Forall2 (got_to R) jobs hs -> forall i js h l,
        nth_error jobs i = Some js -> nth_error hs i = Some h -> In l (map fst js) ->
        fold_left (hear R l) (concat hs) w = fold_left (hear R l) h w).
      { clear. intros jobs hs w A F. revert w. induction F as [|a h jobs hs G F IH]; intros w [|i] js h' l Hj Hh Hl; try discriminate.
        - cbn in Hj, Hh. injection Hj as <-. injection Hh as <-. cbn [concat]. rewrite fold_left_app. apply hear_none.
          intros e He E. apply in_concat in He. destruct He as (h' & Hh & He).
          destruct (In_nth_error _ _ Hh) as (j & Hj). destruct (nth_error jobs j) as [b|] eqn:B.
          + assert (Gb : got_to R b h').
            { clear -F Hj B. revert j Hj B. induction F; intros [|j] Hj B; try discriminate; cbn in *.
              - congruence.
              - eapply IHF; eauto. }
            apply (A 0 (S j) a b l); auto. rewrite <- E. eapply got_to_in; eauto.
          + apply nth_error_None in B. assert (nth_error hs j <> None) by congruence. apply nth_error_Some in H.
            assert (L : List.length jobs = List.length hs) by (clear -F; induction F; cbn; congruence). lia.
        - cbn in Hj, Hh. cbn [concat]. rewrite fold_left_app. rewrite (hear_none R l h).
          + apply (IH (fun i j a b l N X Y => A (S i) (S j) a b l (fun E => N (eq_add_S _ _ E)) X Y) w i js h' l Hj Hh Hl).
          + intros e He E. apply (A 0 (S i) a js l); auto. rewrite <- E. eapply got_to_in; eauto. }
      intros i js h l Hj Hh Hl. unfold outcome. exact (X jobs hs Untouched A F i js h l Hj Hh Hl).
    - intros l N. unfold outcome. apply hear_none. intros e He E. apply N. clear A N. subst l.
      induction F as [|a h jobs hs G F IH]; cbn in *; [contradiction|]. rewrite map_app. apply in_or_app.
      apply in_app_or in He. destruct He as [He|He]; [left; eapply got_to_in; eauto|right; now apply IH].
  Qed.
End Merge.
