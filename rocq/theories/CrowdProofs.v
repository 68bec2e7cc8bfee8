From Verif Require Import Base Spec DomModel NDSortModel NDSortProofs VarModel SortModel SortProofs NsgaModel NsgaSpec NsgaProofs.
From Coq Require Import QArith.
Local Open Scope nat_scope.

Lemma inner_cons obj j den p c n inds d :
  inner_gaps obj j den (p :: c :: n :: inds) d =
  inner_gaps obj j den (c :: n :: inds) (upd d c (dist_add (d c) (inject_Z (objective obj j n - objective obj j p)%Z / den)%Q)).
Proof. reflexivity. Qed.

Lemma inner_unchanged obj j den inds : forall d x, ~ In x (removelast (tl inds)) -> inner_gaps obj j den inds d x = d x.
Proof.
  induction inds as [|p inds IH]; intros d x H; [reflexivity|].
  destruct inds as [|c [|n inds]]; try reflexivity.
  rewrite inner_cons, IH.
  - apply upd_other. intros ->. apply H. cbn. auto.
  - intros Hx. apply H. cbn [tl] in *. cbn [removelast]. right. exact Hx.
Qed.

Lemma inner_value obj j den : forall l1 p x n l2 d, NoDup (l1 ++ p :: x :: n :: l2) ->
  inner_gaps obj j den (l1 ++ p :: x :: n :: l2) d x =
  dist_add (d x) (inject_Z (objective obj j n - objective obj j p)%Z / den)%Q.
Proof.
  assert (R : forall (l : list nat) a, NoDup (a :: l) -> ~ In a (removelast l)).
  { intros l a H Hin. inversion H; subst. apply H2. clear - Hin. induction l as [|b l IH]; [destruct Hin|].
    destruct l; [destruct Hin|]. destruct Hin as [->|Hin]; [left; reflexivity|right; auto]. }
  induction l1 as [|a l1 IH]; intros p x n l2 d H.
  - cbn [app]. rewrite inner_cons, inner_unchanged.
    + apply upd_same.
    + cbn [tl]. inversion H; subst. apply (R (n :: l2) x). exact H3.
  - assert (H' : NoDup (l1 ++ p :: x :: n :: l2)) by (inversion H; assumption).
    destruct l1 as [|b [|c l1]]; cbn [app]; rewrite inner_cons.
    + change (p :: x :: n :: l2) with ([] ++ p :: x :: n :: l2). rewrite IH by assumption.
      rewrite upd_other; [reflexivity|]. inversion H'; subst. intros ->. apply H2. left. reflexivity.
    + change (b :: p :: x :: n :: l2) with ([b] ++ p :: x :: n :: l2). rewrite IH by assumption.
      rewrite upd_other; [reflexivity|]. inversion H'; subst. intros ->. apply H2. right. left. reflexivity.
    + change (b :: c :: l1 ++ p :: x :: n :: l2) with ((b :: c :: l1) ++ p :: x :: n :: l2). rewrite IH by assumption.
      rewrite upd_other; [reflexivity|]. inversion H'; subst. intros ->. apply H2.
      right. apply in_or_app. right. right. left. reflexivity.
Qed.

Lemma objective_value obj j x : objective obj j x = value_of obj j x.
Proof. reflexivity. Qed.

Lemma last_app2 {A} (l : list A) b z d : last (l ++ [b; z]) d = z.
Proof. induction l as [|a l IH]; [reflexivity|]. cbn. destruct (l ++ [b; z]) eqn:E; [destruct l; discriminate|]. rewrite <- E in *. cbn in IH. exact IH. Qed.

Lemma removelast_app2 {A} (l : list A) b z : removelast (l ++ [b; z]) = l ++ [b].
Proof. change [b; z] with ([b] ++ [z]). rewrite app_assoc. apply removelast_last. Qed.

Lemma last_app1 {A} (l : list A) b d : last (l ++ [b]) d = b.
Proof. apply last_last. Qed.

(** one objective, exactly *)
Lemma crowd_objective_exact eps obj f l0 d j : 2 <= length f -> NoDup f -> Permutation l0 f ->
  exists l d', crowd_objective eps obj (l0, d) j = (l, d') /\ ordered_by obj j f l /\
    (forall x, ~ In x f -> d' x = d x) /\
    (forall x, In x f -> hd_error l = Some x -> d' x = Inf) /\
    (forall x, In x f -> hd_error l <> Some x ->
       exists s, crowding_share eps obj j l x s /\ d' x = dist_add (d x) s).
Proof.
  intros Hlen Hnd Hp. unfold crowd_objective.
  set (le := fun a b => (objective obj j a <=? objective obj j b)%Z).
  set (l := stable_sort le l0).
  assert (Pl : Permutation l f). { unfold l. eapply Permutation_trans; [apply stable_sort_perm|exact Hp]. }
  assert (Nl : NoDup l) by (eapply Permutation_NoDup; [apply Permutation_sym; exact Pl|exact Hnd]).
  assert (Sl : StronglySorted (fun a b => (value_of obj j a <= value_of obj j b)%Z) l).
  { assert (S : StronglySorted (fun a b => le a b = true) l).
    { unfold l. apply (stable_sort_sorted le (fun _ => True)); try (apply Forall_forall; auto);
        unfold le; intros; rewrite ?Z.leb_le, ?Z.leb_gt in *; lia. }
    clear - S. unfold le in S. clearbody l. induction S as [|a l S IH F]; constructor; [exact IH|].
    eapply Forall_impl; [|exact F]. intros b Hb. apply Z.leb_le. exact Hb. }
  assert (Ll : 2 <= length l) by (rewrite (Permutation_length Pl); exact Hlen).
  destruct (list_two_last l Ll) as (l1 & b & z & El).
  eexists l, _. split; [reflexivity|]. split; [split; assumption|].
  assert (Elast : last l 0 = z) by (rewrite El; apply last_app2).
  assert (Ebl : last (removelast l) 0 = b) by (rewrite El, removelast_app2; apply last_app1).
  rewrite Elast, Ebl.
  set (first := hd 0 l).
  assert (Ef : exists t, l = first :: t). { unfold first. destruct l as [|a t]; [cbn in Ll; lia|]. exists t. reflexivity. }
  destruct Ef as (t & Ef).
  assert (Zt : In z t).
  { assert (Iz : In z l) by (rewrite El; apply in_or_app; right; right; left; reflexivity).
    rewrite Ef in Iz. destruct Iz as [E0|Iz]; [|exact Iz]. exfalso.
    rewrite El in Nl, Ef. destruct l1 as [|a l1]; cbn in Ef.
    - injection Ef as Ef1 Ef2. subst. inversion Nl; subst. apply H1. left. congruence.
    - injection Ef as Ef1 Ef2. rewrite Ef1, E0 in Nl. cbn in Nl. inversion Nl; subst. apply H1. apply in_or_app. right. right. left. reflexivity. }
  assert (Fz : first <> z).
  { intros E. rewrite Ef in Nl. inversion Nl as [|? ? N1 N2]. apply N1. rewrite E. exact Zt. }
  assert (Fr : ~ In first (removelast t)).
  { rewrite Ef in Nl. inversion Nl as [|? ? N1 N2]; subst. intros Hin. apply N1. clear - Hin.
    induction t as [|c t IH]; [destruct Hin|]. destruct t; [destruct Hin|]. destruct Hin as [->|Hin]; [left; reflexivity|right; auto]. }
  assert (Zr : ~ In z (removelast t)).
  { assert (Et : exists t1, t = t1 ++ [z]).
    { rewrite Ef in El. destruct l1 as [|a l1]; cbn in El; injection El as E1 E2.
      - exists []. exact E2.
      - exists (l1 ++ [b]). rewrite E2, <- app_assoc. reflexivity. }
    destruct Et as (t1 & Et). rewrite Et. rewrite removelast_last. intros Hin.
    rewrite Ef, Et in Nl. inversion Nl as [|? ? _ N2]; subst. apply NoDup_remove_2 in N2. apply N2. rewrite app_nil_r. exact Hin. }
  assert (Rng : (objective obj j z - objective obj j first)%Z = value_range obj j l).
  { unfold value_range. rewrite Elast. unfold first. reflexivity. }
  rewrite Rng. set (den := (inject_Z (value_range obj j l) + eps)%Q).
  assert (Itl : forall x, ~ In x (removelast t) -> forall d0, inner_gaps obj j den l d0 x = d0 x).
  { intros x Hx d0. apply inner_unchanged. rewrite Ef. cbn [tl]. exact Hx. }
  split; [|split].
  - intros x Hx.
    assert (Hxl : ~ In x l) by (intros K; apply Hx; eapply Permutation_in; eauto).
    rewrite Itl.
    + rewrite !upd_other; [reflexivity| |].
      * intros ->. apply Hxl. rewrite Ef. left. reflexivity.
      * intros ->. apply Hxl. rewrite Ef. right. exact Zt.
    + intros K. apply Hxl. rewrite Ef. right. clear - K.
      induction t as [|c t IH]; [destruct K|]. destruct t; [destruct K|]. destruct K as [->|K]; [left; reflexivity|right; auto].
  - intros x Hx Hh. assert (x = first) by (rewrite Ef in Hh; cbn in Hh; congruence). subst x.
    rewrite Itl by exact Fr. rewrite upd_other by congruence. apply upd_same.
  - intros x Hx Hh. assert (Xf : x <> first) by (intros ->; apply Hh; rewrite Ef; reflexivity).
    destruct (Nat.eq_dec x z) as [->|Xz].
    + exists (2 * inject_Z (value_of obj j z - value_of obj j b) / den)%Q. split.
      * apply share_worst with (l1 := l1). exact El.
      * rewrite Itl by exact Zr. rewrite upd_same. rewrite upd_other by congruence. reflexivity.
    + assert (Xl : In x l) by (eapply Permutation_in; [apply Permutation_sym; exact Pl|exact Hx]).
      destruct (in_split _ _ Xl) as (u & v & Euv).
      assert (Hu : u <> []). { intros ->. apply Xf. rewrite Euv in Ef. cbn in Ef. congruence. }
      destruct (exists_last Hu) as (u1 & p & Eu).
      destruct v as [|n v].
      { exfalso. apply Xz. rewrite Euv in Elast. rewrite last_app1 in Elast. exact Elast. }
      assert (E3 : l = u1 ++ p :: x :: n :: v). { rewrite Euv, Eu, <- app_assoc. reflexivity. }
      exists (inject_Z (value_of obj j n - value_of obj j p) / den)%Q. split.
      * apply share_inner with (l1 := u1) (l2 := v). exact E3.
      * rewrite E3 at 1. rewrite inner_value by (rewrite <- E3; exact Nl).
        rewrite upd_other by congruence. rewrite upd_other by congruence. reflexivity.
Qed.

Lemma crowd_fold_exact eps obj f : 2 <= length f -> NoDup f -> forall js l0 d, Permutation l0 f ->
  exists orders, Forall2 (fun j l => ordered_by obj j f l) js orders /\
    let d' := snd (fold_left (crowd_objective eps obj) js (l0, d)) in
    (forall x, ~ In x f -> d' x = d x) /\
    forall x, In x f ->
      ((d x = Inf \/ exists l, In l orders /\ hd_error l = Some x) -> d' x = Inf) /\
      (forall a, d x = Fin a -> (forall l, In l orders -> hd_error l <> Some x) ->
         exists shares, Forall2 (fun jl s => crowding_share eps obj (fst jl) (snd jl) x s) (combine js orders) shares /\
                        d' x = Fin (fold_left Qplus shares a)).
Proof.
  intros Hlen Hnd. induction js as [|j js IH]; intros l0 d Hp; cbn [fold_left].
  - exists []. split; [constructor|]. cbn [snd]. split; [reflexivity|]. intros x Hx. split.
    + intros [H|(l & [] & _)]. exact H.
    + intros a Ha _. exists []. split; [constructor|]. exact Ha.
  - destruct (crowd_objective_exact eps obj f l0 d j Hlen Hnd Hp) as (l & d1 & E & O & Out & Hd & Sh).
    rewrite E. destruct (IH l d1 (proj1 O)) as (orders & F & Out' & In').
    exists (l :: orders). split; [constructor; assumption|]. split.
    + intros x Hx. rewrite Out' by exact Hx. apply Out. exact Hx.
    + intros x Hx. destruct (In' x Hx) as [I1 I2]. split.
      * intros H. apply I1. destruct (option_map (Nat.eqb x) (hd_error l)) as [[|]|] eqn:Eh.
        -- left. apply Hd; [exact Hx|]. destruct (hd_error l) as [y|]; [|discriminate]. cbn in Eh.
           injection Eh as Eh. apply Nat.eqb_eq in Eh. congruence.
        -- assert (Nh : hd_error l <> Some x).
           { intros Eq. rewrite Eq in Eh. cbn in Eh. rewrite Nat.eqb_refl in Eh. discriminate. }
           destruct H as [H|(l' & [<-|Hl'] & Hh)]; [|contradiction|right; eauto].
           left. destruct (Sh x Hx Nh) as (s & _ & ->). rewrite H. reflexivity.
        -- assert (Nh : hd_error l <> Some x).
           { intros Eq. rewrite Eq in Eh. discriminate. }
           destruct H as [H|(l' & [<-|Hl'] & Hh)]; [|contradiction|right; eauto].
           left. destruct (Sh x Hx Nh) as (s & _ & ->). rewrite H. reflexivity.
      * intros a Ha Hn. destruct (Sh x Hx (Hn l (or_introl eq_refl))) as (s & S & Ed).
        destruct (I2 (a + s)%Q) as (shares & FS & EF).
        { rewrite Ed, Ha. reflexivity. }
        { intros l' Hl'. apply Hn. right. exact Hl'. }
        exists (s :: shares). split; [constructor; assumption|exact EF].
Qed.

Lemma NoDup_left {A} (l l' : list A) : NoDup (l ++ l') -> NoDup l.
Proof. intros H. apply NoDup_app_inv in H. apply H. Qed.

Lemma NoDup_right {A} (l l' : list A) : NoDup (l ++ l') -> NoDup l'.
Proof. intros H. apply NoDup_app_inv in H. apply H. Qed.

Lemma crowd_front_outside eps obj m d f x : NoDup f -> ~ In x f -> crowd_front eps obj m d f x = d x.
Proof.
  intros N Hx. unfold crowd_front. destruct f as [|a [|b f]]; [reflexivity| |].
  - apply upd_other. intros ->. apply Hx. left. reflexivity.
  - destruct (crowd_fold_exact eps obj (a :: b :: f)) with (js := seq 0 m) (l0 := a :: b :: f) (d := d)
      as (orders & _ & Out & _); [cbn; lia|exact N|apply Permutation_refl|]. apply Out. exact Hx.
Qed.

Lemma crowding_fold_outside eps obj m fronts x : NoDup (concat fronts) -> ~ In x (concat fronts) -> forall d,
  fold_left (crowd_front eps obj m) fronts d x = d x.
Proof.
  induction fronts as [|f fronts IH]; intros N Hx d; [reflexivity|]. cbn [fold_left concat] in *.
  rewrite IH.
  - apply crowd_front_outside.
    + exact (NoDup_left _ _ N).
    + intros K. apply Hx. apply in_or_app. auto.
  - exact (NoDup_right _ _ N).
  - intros K. apply Hx. apply in_or_app. auto.
Qed.

Lemma crowding_exact eps obj m fronts : NoDup (concat fronts) ->
  forall front, In front fronts -> 2 <= length front ->
  exists orders, length orders = m /\
    (forall j l, nth_error orders j = Some l -> ordered_by obj j front l) /\
    forall x, In x front ->
      ((exists l, In l orders /\ hd_error l = Some x) /\ crowding eps obj m fronts x = Inf) \/
      ((forall l, In l orders -> hd_error l <> Some x) /\
       exists shares, length shares = m /\
         (forall j l s, nth_error orders j = Some l -> nth_error shares j = Some s -> crowding_share eps obj j l x s) /\
         crowding eps obj m fronts x = Fin (fold_left Qplus shares 0%Q)).
Proof.
  intros N front Hin Hlen. destruct (in_split _ _ Hin) as (f1 & f2 & ->).
  assert (N1 : NoDup front /\ (forall x, In x front -> ~ In x (concat f1) /\ ~ In x (concat f2)) /\ NoDup (concat f1) /\ NoDup (concat f2)).
  { rewrite concat_app in N. cbn [concat] in N. split; [|split; [|split]].
    - apply NoDup_right in N. apply NoDup_left in N. exact N.
    - intros x Hx. split; intros K.
      + clear - N Hx K. induction (concat f1) as [|a l IH]; [destruct K|]. cbn in N. inversion N; subst.
        destruct K as [->|K]; [apply H1; apply in_or_app; right; apply in_or_app; left; exact Hx|auto].
      + apply NoDup_right in N. clear - N Hx K. induction front as [|a l IH]; [destruct Hx|]. cbn in N. inversion N; subst.
        destruct Hx as [->|Hx]; [apply H1; apply in_or_app; right; exact K|auto].
    - apply NoDup_left in N. exact N.
    - apply NoDup_right in N. apply NoDup_right in N. exact N. }
  destruct N1 as (Nf & Dj & Nf1 & Nf2).
  unfold crowding. rewrite fold_left_app. cbn [fold_left].
  set (d := fold_left (crowd_front eps obj m) f1 (fun _ => Fin 0%Q)).
  assert (D0 : forall x, In x front -> d x = Fin 0%Q).
  { intros x Hx. unfold d. apply crowding_fold_outside; [exact Nf1|]. apply Dj. exact Hx. }
  destruct (crowd_fold_exact eps obj front Hlen Nf (seq 0 m) front d (Permutation_refl _)) as (orders & F & _ & I).
  exists orders.
  assert (Lo : length orders = m).
  { clear - F. assert (length (seq 0 m) = length orders) by (induction F; cbn; congruence). rewrite seq_length in H. congruence. }
  split; [exact Lo|].
  assert (Nth : forall j l, nth_error orders j = Some l -> ordered_by obj j front l).
  { intros j l E. assert (Hj : j < m) by (rewrite <- Lo; apply nth_error_Some; congruence).
    assert (G : forall js os, Forall2 (fun j l => ordered_by obj j front l) js os ->
              forall k a b, nth_error js k = Some a -> nth_error os k = Some b -> ordered_by obj a front b).
    { clear. intros js os F. induction F; intros [|k] a b Ha Hb; cbn in *; try discriminate; [congruence|eauto]. }
    apply (G _ _ F j j l); [|exact E].
    clear - Hj. replace (Some j) with (Some (0 + j)) by reflexivity. revert Hj. generalize 0.
    induction m as [|m' IH] in j |- *; intros s Hj; [lia|]. destruct j as [|j]; cbn; [f_equal; lia|].
    rewrite IH by lia. f_equal. lia. }
  split; [exact Nth|].
  assert (CF : forall x, In x front ->
     fold_left (crowd_front eps obj m) f2 (crowd_front eps obj m d front) x
     = snd (fold_left (crowd_objective eps obj) (seq 0 m) (front, d)) x).
  { intros x Hx. rewrite crowding_fold_outside; [|exact Nf2|apply Dj; exact Hx].
    destruct front as [|a [|b fr]]; [cbn in Hlen; lia|cbn in Hlen; lia|]. reflexivity. }
  intros x Hx. rewrite CF by exact Hx. destruct (I x Hx) as [I1 I2].
  assert (Dec : (exists l, In l orders /\ hd_error l = Some x) \/ (forall l, In l orders -> hd_error l <> Some x)).
  { clear. induction orders as [|l orders IH]; [right; intros l []|].
    destruct IH as [(l' & A & B)|IH]; [left; exists l'; split; [right; exact A|exact B]|].
    destruct (hd_error l) as [y|] eqn:E.
    - destruct (Nat.eq_dec y x) as [->|Ne]; [left; exists l; split; [left; reflexivity|exact E]|].
      right. intros l' [<-|Hl']; [congruence|auto].
    - right. intros l' [<-|Hl']; [congruence|auto]. }
  destruct Dec as [D|D].
  - left. split; [exact D|]. apply I1. right. exact D.
  - right. split; [exact D|]. destruct (I2 0%Q (D0 x Hx) D) as (shares & FS & EF). exists shares.
    assert (Ls : length shares = m).
    { assert (K : length (combine (seq 0 m) orders) = length shares) by (clear - FS; induction FS; cbn; congruence).
      rewrite combine_length, seq_length, Lo, Nat.min_id in K. congruence. }
    split; [exact Ls|]. split; [|exact EF].
    intros j l s El Es.
    assert (Hj : j < m) by (rewrite <- Lo; apply nth_error_Some; congruence).
    assert (G : forall os ss k, Forall2 (fun jl s => crowding_share eps obj (fst jl) (snd jl) x s) (combine (seq k (length os)) os) ss ->
              forall i b c, nth_error os i = Some b -> nth_error ss i = Some c -> crowding_share eps obj (k + i) b x c).
    { clear. induction os as [|o os IH]; intros ss k F [|i] b c Hb Hc; cbn in *; try discriminate; inversion F; subst; cbn in Hc.
      - injection Hb as <-. injection Hc as <-. rewrite Nat.add_0_r. exact H1.
      - replace (k + S i) with (S k + i) by lia. exact (IH _ _ H3 i b c Hb Hc). }
    rewrite <- Lo in FS. exact (G orders shares 0 FS j l s El Es).
Qed.

(** ---- the mating tournament ---- *)
Lemma key_lt_le a b : key_lt a b = true -> key_le a b = true.
Proof.
  unfold key_lt. rewrite orb_true_iff, andb_true_iff, negb_true_iff. intros H. apply key_le_spec.
  rewrite Nat.ltb_lt, Nat.eqb_eq in H. destruct H as [H|[H1 H2]]; [auto|right]. split; [exact H1|].
  destruct (Qlt_le_dec (snd b) (snd a)) as [L|L]; [|exact L].
  apply Qlt_le_weak in L. apply Qle_bool_iff in L. congruence.
Qed.

Lemma key_lt_false a b : key_lt a b = false -> key_le b a = true.
Proof.
  unfold key_lt. rewrite orb_false_iff, andb_false_iff, negb_false_iff. intros [H1 H2]. apply key_le_spec.
  rewrite Nat.ltb_ge, Nat.eqb_neq in *.
  destruct (Nat.eq_dec (fst a) (fst b)) as [E|E]; [right|left; lia]. split; [congruence|].
  destruct H2 as [H2|H2]; [contradiction|]. apply Qle_bool_iff. exact H2.
Qed.

Lemma key_le_refl a : key_le a a = true.
Proof. apply key_le_spec. right. split; [reflexivity|apply Qle_refl]. Qed.

Lemma collect_nth {A B} (g : A -> option B) l : (forall x, In x l -> g x <> None) ->
  exists out, collect (map g l) = Some out /\ length out = length l /\
    forall k w, nth_error out k = Some w -> exists x, nth_error l k = Some x /\ g x = Some w.
Proof.
  induction l as [|a l IH]; intros H; cbn.
  - exists []. split; [reflexivity|]. split; [reflexivity|]. intros [|k] w E; discriminate.
  - destruct (g a) as [b|] eqn:E; [|exfalso; apply (H a); [left; reflexivity|exact E]].
    destruct IH as (out & -> & L & K); [intros x Hx; apply H; right; exact Hx|].
    exists (b :: out). split; [reflexivity|]. split; [cbn; congruence|].
    intros [|k] w Ew; cbn in *; [exists a; split; congruence|]. apply K. exact Ew.
Qed.

Lemma mating_selection_spec (D : step_draws) (eps : Q) (rank : nat -> nat) (d : nat -> dist) (survivors : list nat) (M : nat) :
    (0 < eps)%Q -> (forall x, In x survivors -> crowd_nonneg (d x)) -> survivors <> [] ->
    exists pool, mating_selection D (fitness_key eps rank d) survivors M = Some pool /\
      length pool = 2 * M /\
      forall k w, nth_error pool k = Some w ->
        exists x1 x2,
          nth_error survivors (choice D (2 * k) mod length survivors) = Some x1 /\
          nth_error survivors (choice D (2 * k + 1) mod length survivors) = Some x2 /\
          (w = x1 \/ w = x2) /\
          let preferred a b := rank a < rank b \/ (rank a = rank b /\ crowd_ge (d a) (d b)) in
          (coin D k = true -> preferred w x1 /\ preferred w x2) /\
          (coin D k = false -> preferred x1 w /\ preferred x2 w).
Proof.
  intros He Hnn Hne.
  assert (Ch : forall c, exists x, random_choice c survivors = Some x /\ nth_error survivors (c mod length survivors) = Some x).
  { intros c. unfold random_choice. destruct survivors as [|a s]; [contradiction|].
    destruct (nth_error (a :: s) (c mod length (a :: s))) as [x|] eqn:E; [eauto|].
    apply nth_error_None in E. pose proof (Nat.mod_upper_bound c (length (a :: s))). cbn [length] in *. lia. }
  unfold mating_selection. destruct (collect_nth (fun k =>
    match random_choice (choice D (2 * k)) survivors,
          random_choice (choice D (2 * k + 1)) survivors with
    | Some x1, Some x2 =>
        Some (if coin D k
              then (if key_lt (fitness_key eps rank d x1) (fitness_key eps rank d x2) then x1 else x2)
              else (if key_lt (fitness_key eps rank d x2) (fitness_key eps rank d x1) then x1 else x2))
    | _, _ => None
    end) (seq 0 (2 * M))) as (pool & E & L & K).
  { intros k _. destruct (Ch (choice D (2 * k))) as (x1 & -> & _). destruct (Ch (choice D (2 * k + 1))) as (x2 & -> & _). discriminate. }
  exists pool. split; [exact E|]. split; [rewrite L; apply seq_length|].
  intros k w Ew. destruct (K k w Ew) as (k' & Ek & G).
  assert (k' = k).
  { assert (Hk : k < 2 * M) by (rewrite <- (seq_length (2 * M) 0); apply nth_error_Some; congruence).
    rewrite (nth_error_nth' _ 0) in Ek by (rewrite seq_length; exact Hk). rewrite seq_nth in Ek by exact Hk. cbn in Ek. congruence. }
  subst k'.
  destruct (Ch (choice D (2 * k))) as (x1 & C1 & N1). destruct (Ch (choice D (2 * k + 1))) as (x2 & C2 & N2).
  rewrite C1, C2 in G. exists x1, x2. split; [exact N1|]. split; [exact N2|].
  assert (I1 : crowd_nonneg (d x1)) by (apply Hnn; eapply nth_error_In; exact N1).
  assert (I2 : crowd_nonneg (d x2)) by (apply Hnn; eapply nth_error_In; exact N2).
  injection G as G. pose proof (fun x y => key_le_meaning eps rank d x y He) as KM.
  split; [destruct (coin D k), (key_lt _ _); auto|].
  cbn zeta. destruct (coin D k); split; intros Hc; try discriminate.
  - destruct (key_lt (fitness_key eps rank d x1) (fitness_key eps rank d x2)) eqn:Lt; subst w.
    + split; apply KM; auto; [apply key_le_refl|apply key_lt_le; exact Lt].
    + split; apply KM; auto; [apply key_lt_false; exact Lt|apply key_le_refl].
  - destruct (key_lt (fitness_key eps rank d x2) (fitness_key eps rank d x1)) eqn:Lt; subst w.
    + split; apply KM; auto; [apply key_le_refl|apply key_lt_le; exact Lt].
    + split; apply KM; auto; [apply key_lt_false; exact Lt|apply key_le_refl].
Qed.
