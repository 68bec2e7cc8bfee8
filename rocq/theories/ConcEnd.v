(** C148: what the processes leave behind, and how long they take. *)
Require Import String Ascii List Arith Lia Bool.
From Verif Require Import PyStr PyStrFacts IdModel FsModel FsSpec FsProofs FsHist ConcModel ConcSpec ConcProofs.
Import ListNotations.
Open Scope string_scope.

Lemma collect : forall {A B C} (T : A -> B -> C -> Prop) (l : list A) (m : list B), List.length m = List.length l ->
  (forall i a b, nth_error l i = Some a -> nth_error m i = Some b -> exists c, T a b c) ->
  exists n, List.length n = List.length l /\
    forall i a b c, nth_error l i = Some a -> nth_error m i = Some b -> nth_error n i = Some c -> T a b c.
Proof.
  intros A B C T. induction l as [|a l IH]; intros [|b m] L H; try discriminate.
  - exists []. split; [reflexivity|]. intros [|i]; discriminate.
  - destruct (H 0 a b eq_refl eq_refl) as (c & Hc).
    destruct (IH m) as (n & Ln & Hn); [now injection L|intros i; apply (H (S i))|].
    exists (c :: n). split; [cbn; congruence|]. intros [|i] a' b' c' X Y Z; cbn in *.
    + congruence.
    + exact (Hn i a' b' c' X Y Z).
Qed.

Lemma nth_Forall2 : forall {A B} (T : A -> B -> Prop) l m, List.length m = List.length l ->
  (forall i a b, nth_error l i = Some a -> nth_error m i = Some b -> T a b) -> Forall2 T l m.
Proof.
  intros A B T. induction l as [|a l IH]; intros [|b m] L H; try discriminate; constructor.
  - apply (H 0); reflexivity.
  - apply IH; [now injection L|]. intros i. apply (H (S i)).
Qed.

Lemma got_to_stored : forall R js, got_to R js (stored R js).
Proof. intros R. induction js as [|j js IH]; cbn; constructor. exact IH. Qed.

Section End.
  Variable R : Type.
  Variable pickle : R -> string.
  Variable root : string.
  Variable s0 : fs.
  Variable jobs : list (list (location * R)).
  Hypothesis Hu : usable root s0.
  Hypothesis Ht : tree s0.
  Hypothesis Ha : apart R jobs.

  Notation lp := (loc_path root).
  Notation ld := (loc_dir root).

  Lemma good_histories : forall st, good R pickle root s0 jobs st ->
    (forall P, In P (snd st) -> forall e, P <> Return (Some e)) /\
    exists hs, Forall2 (got_to R) jobs hs /\
      (forall i js h, nth_error jobs i = Some js -> nth_error hs i = Some h ->
         nth_error (snd st) i = Some (Return None) -> h = stored R js) /\
      (forall l, lookup (fst st) (lp l) = stands R pickle root s0 l (outcome R (concat hs) l)).
  Proof.
    intros [s ps] [I Len Ok Rest]. cbn [fst snd] in *. split.
    - intros P HP e ->. destruct (In_nth_error _ _ HP) as (i & Hi).
      destruct (nth_error jobs i) as [js|] eqn:J.
      + destruct (Ok i js _ J Hi) as [X _]. discriminate.
      + apply nth_error_None in J. assert (X : nth_error ps i <> None) by congruence. apply nth_error_Some in X. lia.
    - destruct (collect (fun js P h => got_to R js h /\ (P = Return None -> h = stored R js) /\ holds R pickle root s0 js h s)
        jobs ps Len) as (hs & Lh & Hh).
      { intros i js P J HP. pose proof (Ok i js P J HP) as X. destruct P as [e|c k].
        - destruct X as (_ & X & _). exists (stored R js). split; [apply got_to_stored|]. auto.
        - destruct X as [(h & G & X) _]. exists h. split; [exact G|]. split; [discriminate|exact X]. }
      assert (P : forall i, nth_error jobs i <> None -> nth_error ps i <> None)
        by (intros i X; apply nth_error_Some in X; apply nth_error_Some; lia).
      assert (F : Forall2 (got_to R) jobs hs).
      { apply nth_Forall2; [exact Lh|]. intros i js h J Hi.
        destruct (nth_error ps i) as [p|] eqn:Pi; [|exfalso; apply (P i); congruence].
        apply (Hh i js p h J Pi Hi). }
      exists hs. split; [exact F|]. split.
      { intros i js h J Hi Pi. now apply (Hh i js _ h J Pi Hi). }
      destruct (outcome_concat R jobs hs Ha F) as [O1 O2]. intro l.
      destruct (in_dec location_eq_dec l (map fst (concat jobs))) as [X|X].
      + apply in_map_iff in X. destruct X as (x & <- & X). apply in_concat in X. destruct X as (js & Hj & Hx).
        destruct (In_nth_error _ _ Hj) as (i & J).
        destruct (nth_error ps i) as [p|] eqn:Pi; [|exfalso; apply (P i); congruence].
        destruct (nth_error hs i) as [h|] eqn:Hi.
        * assert (M : In (fst x) (map fst js)) by now apply in_map.
          rewrite (O1 i js h _ J Hi M). apply (Hh i js p h J Pi Hi). exact M.
        * apply nth_error_None in Hi. assert (Y : nth_error jobs i <> None) by congruence. apply nth_error_Some in Y. lia.
      + rewrite (O2 l X). cbn [stands]. destruct (Rest (lp l)) as [Y|[(l' & M & Y)|(_ & l' & M & Y)]]; [exact Y| |].
        * apply loc_path_inj in Y. subst l'. contradiction.
        * exfalso. exact (loc_path_not_prefix root l _ _ _ _ Y eq_refl).
  Qed.

  (** The same results stored one after the other. *)
  Lemma run_stored : forall js s, usable root s ->
    (forall q, lookup s q = Some Dir -> lookup (run_events R pickle root s (stored R js)) q = Some Dir) /\
    (forall l q, In l (map fst js) -> In q (prefixes (ld l)) ->
       lookup (run_events R pickle root s (stored R js)) q = Some Dir) /\
    (forall q, (forall l, In l (map fst js) -> q <> lp l /\ ~ In q (prefixes (ld l))) ->
       lookup (run_events R pickle root s (stored R js)) q = lookup s q).
  Proof.
    induction js as [|[l r] js IH]; intros s U.
    - cbn. split; [auto|]. split; [intros l q []|reflexivity].
    - change (run_events R pickle root s (stored R ((l, r) :: js)))
        with (run_events R pickle root (run_event R pickle root s (event_of R (l, r) Finished)) (stored R js)).
      set (s1 := run_event R pickle root s (event_of R (l, r) Finished)).
      assert (U1 : usable root s1) by now apply usable_event.
      destruct (IH s1 U1) as (A & B & C).
      assert (F : (forall q, In q (prefixes (ld l)) -> lookup s1 q = Some Dir) /\
        lookup s1 (lp l) = Some (File (pickle r)) /\
        (forall q, q <> lp l -> ~ In q (prefixes (ld l)) -> lookup s1 q = lookup s q)).
      { unfold s1, run_event. cbn [event_of e_loc e_result e_reach fst snd steps]. rewrite firstn_all.
        apply finished_store; [discriminate|now apply usable_no_error]. }
      destruct F as (F1 & F2 & F3). split; [|split].
      + intros q Hq. apply A. destruct (in_dec (list_eq_dec string_dec) q (prefixes (ld l))) as [X|X]; [now apply F1|].
        rewrite F3; auto. intros ->. exact (us_files _ _ U l Hq).
      + intros l' q Hl Hq. cbn in Hl. destruct Hl as [<-|Hl]; [apply A, F1, Hq|eapply B; eauto].
      + intros q Hq. rewrite C by (intros l' Hl; apply Hq; now right).
        destruct (Hq l (or_introl eq_refl)) as [N1 N2]. now apply F3.
  Qed.

  Lemma good_end : forall st, good R pickle root s0 jobs st -> Forall (fun P => P = Return None) (snd st) ->
    forall q, lookup (fst st) q = lookup (run_events R pickle root s0 (stored R (concat jobs))) q.
  Proof.
    intros st G E q. destruct (good_histories st G) as (_ & hs & F & Hd & Hl).
    destruct G as [I Len Ok Rest].
    assert (Hs : concat hs = stored R (concat jobs)).
    { assert (Lh : List.length jobs = List.length hs) by (clear -F; induction F; cbn; congruence).
      assert (X : forall i js h, nth_error jobs i = Some js -> nth_error hs i = Some h -> h = stored R js).
      { intros i js h J Hi. apply (Hd i js h J Hi).
        destruct (nth_error (snd st) i) as [P|] eqn:Pi.
        - rewrite Forall_forall in E. now rewrite (E P (nth_error_In _ _ Pi)).
        - apply nth_error_None in Pi. assert (Y : nth_error jobs i <> None) by congruence. apply nth_error_Some in Y. lia. }
      clear -F X. induction F as [|js h jobs hs G F IH]; [reflexivity|]. cbn [concat].
      unfold stored. rewrite map_app. fold (stored R js) (stored R (concat jobs)).
      rewrite (X 0 js h eq_refl eq_refl). f_equal. apply IH. intros i. apply (X (S i)). }
    destruct (run_stored (concat jobs) s0 Hu) as (_ & B & C).
    destruct (history_stands R pickle root (stored R (concat jobs)) s0 Hu) as [_ S].
    destruct (in_dec (list_eq_dec string_dec) q (map lp (map fst (concat jobs)))) as [X|X].
    - apply in_map_iff in X. destruct X as (l & <- & _). now rewrite Hl, S, Hs.
    - destruct (in_dec (list_eq_dec string_dec) q (flat_map (fun l => prefixes (ld l)) (map fst (concat jobs)))) as [Y|Y].
      + apply in_flat_map in Y. destruct Y as (l & Hl' & Hq). rewrite (B l q Hl' Hq).
        apply in_map_iff in Hl'. destruct Hl' as (x & <- & Hx). apply in_concat in Hx. destruct Hx as (js & Hj & Hx).
        destruct (In_nth_error _ _ Hj) as (i & J). destruct (nth_error (snd st) i) as [P|] eqn:Pi.
        * pose proof (Ok i js P J Pi) as O. rewrite Forall_forall in E. rewrite (E P (nth_error_In _ _ Pi)) in O.
          destruct O as (_ & _ & M). apply (M (fst x) q); [now apply in_map|exact Hq].
        * apply nth_error_None in Pi. assert (Z : nth_error jobs i <> None) by congruence. apply nth_error_Some in Z. lia.
      + rewrite C.
        * destruct (Rest q) as [Z|[(l & M & Z)|(_ & l & M & Z)]]; [exact Z| |].
          -- exfalso. apply X. subst q. now apply in_map.
          -- exfalso. apply Y. apply in_flat_map. now exists l.
        * intros l M. split; intro Z; [apply X; subst q; now apply in_map|apply Y; apply in_flat_map; now exists l].
  Qed.
End End.

(** * How many calls a process makes at most *)
Fixpoint height (P : prog) : nat :=
  match P with
  | Return _ => 0
  | Call _ k =>
      let h r := height (k r) in
      S (Nat.max (Nat.max (h Done) (Nat.max (h (Answer true)) (h (Answer false))))
           (Nat.max (Nat.max (h (Failed Exists)) (h (Failed NoEntry))) (Nat.max (h (Failed NotDir)) (h (Failed IsDirectory)))))
  end.

Lemma height_call : forall c k r, (height (k r) < height (Call c k))%nat.
Proof.
  intros c k r. cbn [height]. destruct r as [|[| | |]|[|]]; lia.
Qed.

Lemma turn_length : forall st i, List.length (snd (turn st i)) = List.length (snd st).
Proof.
  intros [s ps] i. unfold turn. cbn [fst snd]. destruct (nth_error ps i) as [[e|c k]|] eqn:E; try reflexivity.
  assert (X : nth_error ps i <> None) by congruence. apply nth_error_Some in X.
  destruct (do_call s c) as [s' r]. cbn [snd]. rewrite app_length. cbn [List.length].
  rewrite firstn_length, skipn_length. lia.
Qed.

Lemma turn_height : forall st i j P, nth_error (snd st) j = Some P -> exists P', nth_error (snd (turn st i)) j = Some P' /\
  (height P' <= height P - (if Nat.eqb i j then 1 else 0))%nat.
Proof.
  intros [s ps] i j P H. unfold turn. cbn [fst snd] in *. destruct (nth_error ps i) as [[e|c k]|] eqn:E; cbn [snd].
  - exists P. split; [exact H|]. destruct (Nat.eqb_spec i j) as [<-|]; [|lia]. rewrite H in E. injection E as ->. cbn. lia.
  - assert (X : nth_error ps i <> None) by congruence. apply nth_error_Some in X.
    destruct (do_call s c) as [s' r]. cbn [snd]. rewrite nth_replace by exact X.
    destruct (Nat.eqb_spec i j) as [<-|].
    + exists (k r). split; [reflexivity|]. rewrite H in E. injection E as ->. pose proof (height_call c k r). lia.
    + exists P. split; [exact H|lia].
  - exists P. split; [exact H|]. destruct (Nat.eqb_spec i j) as [<-|]; [congruence|lia].
Qed.

Lemma run_height : forall schedule st j P, nth_error (snd st) j = Some P ->
  exists P', nth_error (snd (fold_left turn schedule st)) j = Some P' /\
  (height P' <= height P - count_occ Nat.eq_dec schedule j)%nat.
Proof.
  induction schedule as [|i schedule IH]; intros st j P H; cbn [fold_left count_occ].
  - exists P. split; [exact H|lia].
  - destruct (turn_height st i j P H) as (P1 & H1 & L1). destruct (IH _ j P1 H1) as (P2 & H2 & L2).
    exists P2. split; [exact H2|]. destruct (Nat.eq_dec i j) as [->|N].
    + rewrite Nat.eqb_refl in L1. lia.
    + destruct (Nat.eqb_spec i j); [congruence|]. lia.
Qed.
