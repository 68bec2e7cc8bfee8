(** Proofs for C160. *)
From Verif Require Import Spec NsgaModel NsgaSpec NsgaProofs CrowdProofs IbeaModel SpeaModel ParentSpec.
From Coq Require Import QArith Reals Lqa.
Local Open Scope nat_scope.

Lemma number_unique P l n m : number_of P l n -> number_of P l m -> n = m.
Proof.
  intros (L & N & H & <-) (L' & N' & H' & <-). apply Permutation_length. apply NoDup_Permutation; auto.
  intros y. rewrite H, H'. reflexivity.
Qed.
Lemma number_filter (b : nat -> bool) (P : nat -> Prop) l : NoDup l -> (forall y, In y l -> (b y = true <-> P y)) ->
  number_of P l (length (filter b l)).
Proof.
  intros N H. exists (filter b l). split; [now apply NoDup_filter|]. split; [|reflexivity].
  intros y. rewrite filter_In. split; intros (A & B); (split; [exact A|]); now apply H.
Qed.
Lemma filter_length_ext {A} (f g : A -> bool) l : (forall x, In x l -> f x = g x) -> length (filter f l) = length (filter g l).
Proof.
  induction l as [|a l IH]; intros H; cbn [filter]; [reflexivity|]. rewrite (H a) by now left.
  destruct (g a); cbn [length]; rewrite IH; auto; intros; apply H; now right.
Qed.
Lemma filter_map_length {A B} (f : A -> B) (P : B -> bool) l : length (filter P (map f l)) = length (filter (fun x => P (f x)) l).
Proof. induction l as [|a l IH]; cbn [map filter]; [reflexivity|]. destruct (P (f a)); cbn [length]; auto. Qed.

Definition others (b : nat -> bool) (x : nat) (S : list nat) : nat := length (filter (fun y => negb (y =? x) && b y) S).

Lemma single x S : NoDup S -> length (filter (fun y => y =? x) S) = if existsb (Nat.eqb x) S then 1 else 0.
Proof.
  induction 1 as [|a S Ha N IH]; cbn [filter existsb]; [reflexivity|]. rewrite (Nat.eqb_sym x a).
  destruct (a =? x) eqn:E; cbn [orb length].
  - apply Nat.eqb_eq in E. subst a. rewrite IH. destruct (existsb (Nat.eqb x) S) eqn:F; [|reflexivity].
    apply existsb_exists in F. destruct F as (y & Hy & Ey). apply Nat.eqb_eq in Ey. now subst y.
  - exact IH.
Qed.
Lemma split_length {A} (f g h : A -> bool) l : (forall x, In x l -> f x = g x || h x) -> (forall x, In x l -> g x && h x = false) ->
  length (filter f l) = length (filter g l) + length (filter h l).
Proof.
  induction l as [|a l IH]; intros H D; cbn [filter]; [reflexivity|].
  specialize (IH (fun x I => H x (or_intror I)) (fun x I => D x (or_intror I))).
  pose proof (H a (or_introl eq_refl)) as Ha. pose proof (D a (or_introl eq_refl)) as Da. rewrite Ha.
  destruct (g a), (h a); cbn in Da |- *; try discriminate; lia.
Qed.

(** Pairs in which [w a b] tells whether the first wins; [same] tells whether a pair of equals is allowed. *)
Lemma pairs_won (w : nat -> nat -> bool) (same : bool) x S : NoDup S -> In x S -> forall A, NoDup A ->
  length (filter (fun ab => (same || negb (fst ab =? snd ab)) && ((if w (fst ab) (snd ab) then fst ab else snd ab) =? x)) (list_prod A S))
  = others (fun y => negb (w y x)) x A +
    (if existsb (Nat.eqb x) A then others (w x) x S + (if same then 1 else 0) else 0).
Proof.
  intros NS Hx. assert (Ex : existsb (Nat.eqb x) S = true) by (apply existsb_exists; exists x; split; [exact Hx | apply Nat.eqb_refl]).
  unfold others. induction 1 as [|a A Ha NA IH]; cbn [list_prod filter existsb]; [reflexivity|].
  rewrite filter_app, app_length, IH, filter_map_length. cbn [fst snd]. rewrite (Nat.eqb_sym x a).
  destruct (a =? x) eqn:E.
  - apply Nat.eqb_eq in E. subst a. cbn [negb andb orb].
    assert (F : existsb (Nat.eqb x) A = false).
    { destruct (existsb (Nat.eqb x) A) eqn:F; [|reflexivity]. apply existsb_exists in F. destruct F as (y & Hy & Ey).
      apply Nat.eqb_eq in Ey. now subst y. }
    rewrite F. rewrite (split_length _ (fun y => negb (y =? x) && w x y) (fun y => same && (y =? x))).
    + assert (G : length (filter (fun y => same && (y =? x)) S) = if same then 1 else 0).
      { destruct same; cbn [andb]; [rewrite single, Ex by exact NS; reflexivity|].
        clear. induction S; cbn; auto. }
      rewrite G. lia.
    + intros y _. destruct (Nat.eqb_spec y x) as [->|Hyx].
      * rewrite Nat.eqb_refl. destruct (w x x); rewrite Nat.eqb_refl; destruct same; reflexivity.
      * assert (x =? y = false) as -> by (apply Nat.eqb_neq; congruence). destruct (w x y).
        -- rewrite Nat.eqb_refl. now destruct same.
        -- assert (y =? x = false) as -> by (now apply Nat.eqb_neq). now destruct same.
    + intros y _. destruct (y =? x); cbn; [reflexivity|]. now rewrite Bool.andb_false_r, Bool.andb_false_r.
  - cbn [negb andb orb].
    rewrite (filter_length_ext _ (fun y => negb (w a x) && (y =? x))).
    + destruct (w a x); cbn [negb andb length].
      * assert (length (filter (fun _ : nat => false) S) = 0) as -> by (clear; induction S; cbn; auto). reflexivity.
      * rewrite single, Ex by exact NS. reflexivity.
    + intros y _. destruct (Nat.eqb_spec y x) as [->|Hyx].
      * rewrite E. rewrite Bool.orb_true_r. destruct (w a x); [now rewrite E | now rewrite Nat.eqb_refl].
      * rewrite Bool.andb_false_r. destruct (w a y); [rewrite E | assert (y =? x = false) as -> by (now apply Nat.eqb_neq)];
          apply Bool.andb_false_r.
Qed.

Lemma nth_seq_map (S : list nat) : map (fun i => nth i S 0) (seq 0 (length S)) = S.
Proof.
  induction S as [|a S IH]; cbn [length seq map nth]; [reflexivity|]. f_equal. rewrite <- seq_shift, map_map. exact IH.
Qed.
Lemma prod_map {A B} (f : A -> B) l l' : map (fun ij => (f (fst ij), f (snd ij))) (list_prod l l') = list_prod (map f l) (map f l').
Proof.
  induction l as [|a l IH]; cbn [list_prod map]; [reflexivity|]. rewrite map_app, IH, !map_map. reflexivity.
Qed.

Lemma wins_pairs (w : nat -> nat -> bool) (same : bool) (allowed : nat -> nat -> bool) (winner : nat -> nat -> option nat) S x :
  NoDup S -> In x S ->
  (forall i j, i < length S -> j < length S -> allowed i j = same || negb (i =? j)) ->
  (forall i j, i < length S -> j < length S -> allowed i j = true ->
     winner i j = Some (if w (nth i S 0) (nth j S 0) then nth i S 0 else nth j S 0)) ->
  wins (length S) allowed winner x = others (fun y => negb (w y x)) x S + others (w x) x S + (if same then 1 else 0).
Proof.
  intros NS Hx Ha Hw. pose proof (pairs_won w same x S NS Hx S NS) as H.
  assert (Ex : existsb (Nat.eqb x) S = true) by (apply existsb_exists; exists x; split; [exact Hx | apply Nat.eqb_refl]).
  rewrite Ex in H. rewrite <- Nat.add_assoc, <- H. unfold wins.
  rewrite <- (nth_seq_map S) at 3 4. rewrite <- prod_map, filter_map_length. apply filter_length_ext.
  intros [i j] Hij. apply in_prod_iff in Hij. destruct Hij as [Hi Hj]. apply in_seq in Hi, Hj. cbn [fst snd].
  assert (Hi' : i < length S) by lia. assert (Hj' : j < length S) by lia.
  assert (En : (nth i S 0 =? nth j S 0) = (i =? j)).
  { destruct (Nat.eqb_spec i j) as [->|Hne]; [apply Nat.eqb_refl|]. apply Nat.eqb_neq. intro E. apply Hne.
    now apply (proj1 (NoDup_nth S 0) NS i j Hi' Hj'). }
  rewrite En, <- Ha by assumption. destruct (allowed i j) eqn:Eal; [|reflexivity]. now rewrite (Hw i j Hi' Hj' Eal).
Qed.

(** In terms of an order: [lt] is strict; the numbers of those below and above x. *)
Lemma others_lt (lt : nat -> nat -> bool) x S : (forall y, lt x y = true -> lt y x = false) -> lt x x = false ->
  NoDup S -> In x S ->
  others (fun y => negb (lt y x)) x S + others (lt x) x S + 1 + length (filter (fun y => lt y x) S)
  = length S + length (filter (lt x) S).
Proof.
  intros As Irr NS Hx.
  assert (A : length (filter (lt x) S) = others (lt x) x S).
  { apply filter_length_ext. intros y _. destruct (Nat.eqb_spec y x) as [->|_]; [now rewrite Irr | reflexivity]. }
  rewrite A. clear A. unfold others.
  assert (B : length S = length (filter (fun y => negb (y =? x) && negb (lt y x)) S) + 1 + length (filter (fun y => lt y x) S)).
  { assert (Ex : existsb (Nat.eqb x) S = true) by (apply existsb_exists; exists x; split; [exact Hx | apply Nat.eqb_refl]).
    pose proof (single x S NS) as E1. rewrite Ex in E1.
    assert (E : length (filter (fun _ : nat => true) S) = length S) by (clear; induction S; cbn; auto).
    rewrite <- E at 1. rewrite (split_length _ (fun y => negb (y =? x) && negb (lt y x)) (fun y => (y =? x) || lt y x)).
    - rewrite (split_length (fun y => (y =? x) || lt y x) (fun y => y =? x) (fun y => lt y x)); [lia | reflexivity|].
      intros y _. destruct (Nat.eqb_spec y x) as [->|_]; [now rewrite Irr | reflexivity].
    - intros y _. now destruct (y =? x), (lt y x).
    - intros y _. now destruct (y =? x), (lt y x). }
  lia.
Qed.

Lemma wins_lt (lt : nat -> nat -> bool) (winner : nat -> nat -> option nat) S x :
  (forall a b, lt a b = true -> lt b a = false) -> NoDup S -> In x S ->
  (forall i j, i < length S -> j < length S -> winner i j = Some (if lt (nth i S 0) (nth j S 0) then nth i S 0 else nth j S 0)) ->
  wins (length S) (fun _ _ => true) winner x + length (filter (fun y => lt y x) S) = length S + length (filter (lt x) S).
Proof.
  intros As NS Hx Hw. assert (Irr : lt x x = false) by (destruct (lt x x) eqn:E; [rewrite (As x x E) in E; discriminate | reflexivity]).
  rewrite (wins_pairs lt true _ winner S x NS Hx); [|intros; reflexivity | intros; now apply Hw].
  apply others_lt; auto.
Qed.

Lemma coin_chance (lt : nat -> nat -> bool) (winner : bool -> nat -> nat -> option nat) S x p :
  (forall a b, lt a b = true -> lt b a = false) -> NoDup S -> In x S ->
  (forall i j, i < length S -> j < length S ->
     winner true i j = Some (if lt (nth i S 0) (nth j S 0) then nth i S 0 else nth j S 0) /\
     winner false i j = Some (if lt (nth j S 0) (nth i S 0) then nth i S 0 else nth j S 0)) ->
  (chance_with_coin p (length S) winner x
   == (of_nat (length S) + (2 * p - 1) * (of_nat (length (filter (lt x) S)) - of_nat (length (filter (fun y => lt y x) S))))
      / of_nat (length S * length S))%Q.
Proof.
  intros As NS Hx Hw.
  pose proof (wins_lt lt (winner true) S x As NS Hx (fun i j Hi Hj => proj1 (Hw i j Hi Hj))) as H1.
  pose proof (wins_lt (fun a b => lt b a) (winner false) S x (fun a b E => As b a E) NS Hx (fun i j Hi Hj => proj2 (Hw i j Hi Hj))) as H2.
  unfold chance_with_coin, of_nat. apply Qmult_comp; [|reflexivity].
  set (W := length (filter (lt x) S)) in *. set (B := length (filter (fun y => lt y x) S)) in *.
  set (n := length S) in *. set (w1 := wins n _ (winner true) x) in *. set (w2 := wins n _ (winner false) x) in *.
  assert (E1 : (inject_Z (Z.of_nat w1) == inject_Z (Z.of_nat n) + inject_Z (Z.of_nat W) - inject_Z (Z.of_nat B))%Q).
  { rewrite <- inject_Z_plus. unfold Qminus. rewrite <- inject_Z_opp, <- inject_Z_plus.
    replace (Z.of_nat w1) with (Z.of_nat n + Z.of_nat W + - Z.of_nat B)%Z by lia. reflexivity. }
  assert (E2 : (inject_Z (Z.of_nat w2) == inject_Z (Z.of_nat n) + inject_Z (Z.of_nat B) - inject_Z (Z.of_nat W))%Q).
  { rewrite <- inject_Z_plus. unfold Qminus. rewrite <- inject_Z_opp, <- inject_Z_plus.
    replace (Z.of_nat w2) with (Z.of_nat n + Z.of_nat B + - Z.of_nat W)%Z by lia. reflexivity. }
  rewrite E1, E2. ring.
Qed.

(** ---- the slots ---- *)
Lemma slot_collect (S : list nat) (win : bool -> nat -> nat -> nat) D k M c i j : k < 2 * M -> i < length S -> j < length S ->
  slot (fun D => collect (map (fun k => match random_choice (choice D (2 * k)) S, random_choice (choice D (2 * k + 1)) S with
                                        | Some x1, Some x2 => Some (win (coin D k) x1 x2) | _, _ => None end) (seq 0 (2 * M)))) D k c i j
  = Some (win c (nth i S 0) (nth j S 0)).
Proof.
  intros Hk Hi Hj. unfold slot. set (D' := tournament_draws D k i j c).
  assert (Ne : S <> []) by (destruct S; [cbn in Hi; lia | discriminate]).
  assert (Ch : forall q, random_choice q S = Some (nth (q mod length S) S 0)).
  { intros q. unfold random_choice. destruct S as [|a s]; [contradiction|]. apply nth_error_nth'.
    apply Nat.mod_upper_bound. cbn. lia. }
  destruct (collect_nth (fun k => match random_choice (choice D' (2 * k)) S, random_choice (choice D' (2 * k + 1)) S with
              | Some x1, Some x2 => Some (win (coin D' k) x1 x2) | _, _ => None end) (seq 0 (2 * M))) as (pool & E & L & K).
  { intros q _. rewrite !Ch. discriminate. }
  rewrite E. rewrite seq_length in L.
  destruct (nth_error pool k) as [w|] eqn:Ew; [|apply nth_error_None in Ew; lia].
  destruct (K k w Ew) as (k' & Ek & G).
  rewrite (nth_error_nth' _ 0) in Ek by (rewrite seq_length; exact Hk). rewrite seq_nth in Ek by exact Hk. injection Ek as <-.
  cbn [Nat.add] in G. rewrite !Ch in G. rewrite <- G. unfold D', tournament_draws. cbn [choice coin].
  rewrite !Nat.eqb_refl. assert (2 * k + 1 =? 2 * k = false) as -> by (apply Nat.eqb_neq; lia).
  now rewrite !Nat.mod_small.
Qed.

Lemma key_lt_asym a b : key_lt a b = true -> key_lt b a = false.
Proof.
  unfold key_lt. intros H. apply Bool.orb_true_iff in H. destruct H as [H|H].
  - apply Nat.ltb_lt in H. assert (fst b <? fst a = false) as -> by (apply Nat.ltb_ge; lia).
    assert (fst b =? fst a = false) as -> by (apply Nat.eqb_neq; lia). reflexivity.
  - apply andb_prop in H. destruct H as [H1 H2]. apply Nat.eqb_eq in H1. rewrite H1, Nat.ltb_irrefl, Nat.eqb_refl. cbn [orb andb].
    apply Bool.negb_true_iff in H2. apply Bool.negb_false_iff. apply Qle_bool_iff. apply Qlt_le_weak. apply Qnot_le_lt.
    intro H. apply Qle_bool_iff in H. congruence.
Qed.

Lemma key_lt_better eps rank d x y : (0 < eps)%Q -> crowd_nonneg (d x) -> crowd_nonneg (d y) ->
  (key_lt (fitness_key eps rank d x) (fitness_key eps rank d y) = true <-> nsga_better rank d x y).
Proof.
  intros He Hx Hy. unfold key_lt, fitness_key, nsga_better. cbn [fst snd].
  rewrite Bool.orb_true_iff, Bool.andb_true_iff, Nat.ltb_lt, Nat.eqb_eq, Bool.negb_true_iff.
  assert (K : Qle_bool (match d y with Inf => 0 | Fin q => 1 / (q + eps) end)%Q (match d x with Inf => 0 | Fin q => 1 / (q + eps) end)%Q = true
              <-> crowd_ge (d y) (d x)).
  { rewrite Qle_bool_iff. destruct (d x) as [|p], (d y) as [|q]; cbn [crowd_ge crowd_nonneg] in *.
    - split; [auto | intros _; apply Qle_refl].
    - assert (0 < 1 / (q + eps))%Q by (apply Qlt_shift_div_l; lra). split; [intros; lra | contradiction].
    - assert (0 < 1 / (p + eps))%Q by (apply Qlt_shift_div_l; lra). split; [auto | intros; lra].
    - assert (P : (0 < p + eps)%Q) by lra. assert (R : (0 < q + eps)%Q) by lra.
      assert (E : (1 / (p + eps) * ((p + eps) * (q + eps)) == q + eps)%Q) by (field; lra).
      assert (F : (1 / (q + eps) * ((p + eps) * (q + eps)) == p + eps)%Q) by (field; lra).
      assert (H0 : (0 < (p + eps) * (q + eps))%Q) by (apply Qmult_lt_0_compat; assumption).
      split; intro H.
      + pose proof (Qmult_le_compat_r _ _ _ H (Qlt_le_weak _ _ H0)) as H3. rewrite E, F in H3. lra.
      + apply (Qmult_le_r _ _ _ H0). rewrite E, F. lra. }
  rewrite <- K. destruct (Qle_bool _ _); intuition congruence.
Qed.

Lemma more_below (lt : nat -> nat -> bool) x y S : (forall a b, lt a b = true -> lt b a = false) ->
  (forall a b c, lt a b = true -> lt b c = true -> lt a c = true) -> NoDup S -> In y S -> lt x y = true ->
  length (filter (lt y) S) < length (filter (lt x) S) /\ length (filter (fun z => lt z x) S) <= length (filter (fun z => lt z y) S).
Proof.
  intros As Tr NS Hy H. split.
  - change (length (y :: filter (lt y) S) <= length (filter (lt x) S)).
    apply NoDup_incl_length.
    + constructor; [|now apply NoDup_filter]. rewrite filter_In. intros (_ & E). rewrite (As y y E) in E. discriminate.
    + intros z [<-|Hz]; apply filter_In; [auto|]. apply filter_In in Hz. destruct Hz as [Hz E]. split; [exact Hz|]. eapply Tr; eauto.
  - apply NoDup_incl_length; [now apply NoDup_filter|]. intros z Hz. apply filter_In in Hz. destruct Hz as [Hz E].
    apply filter_In. split; [exact Hz|]. eapply Tr; eauto.
Qed.

Lemma of_nat_le a b : a <= b -> (of_nat a <= of_nat b)%Q.
Proof. intros H. unfold of_nat. rewrite <- Zle_Qle. lia. Qed.
Lemma of_nat_lt a b : a < b -> (of_nat a < of_nat b)%Q.
Proof. intros H. unfold of_nat. rewrite <- Zlt_Qlt. lia. Qed.

Lemma likelier (lt : nat -> nat -> bool) x y S (p : Q) : (forall a b, lt a b = true -> lt b a = false) ->
  (forall a b c, lt a b = true -> lt b c = true -> lt a c = true) -> NoDup S -> In y S -> lt x y = true -> (1 # 2 < p)%Q ->
  let share z := ((of_nat (length S) + (2 * p - 1) * (of_nat (length (filter (lt z) S)) - of_nat (length (filter (fun a => lt a z) S))))
      / of_nat (length S * length S))%Q in (share y < share x)%Q.
Proof.
  intros As Tr NS Hy H Hp. cbv zeta. destruct (more_below lt x y S As Tr NS Hy H) as [H1 H2].
  apply of_nat_lt in H1. apply of_nat_le in H2.
  assert (P : (0 < of_nat (length S * length S))%Q).
  { apply (of_nat_lt 0). assert (0 < length S) by (destruct S; [destruct Hy | cbn; lia]). nia. }
  assert (P' : (0 < / of_nat (length S * length S))%Q) by (now apply Qinv_lt_0_compat).
  apply (Qmult_lt_r _ _ _ P'). nra.
Qed.

Definition rlt (fit : nat -> R) (a b : nat) : bool := if Rlt_dec (fit a) (fit b) then true else false.
Lemma rlt_iff fit a b : rlt fit a b = true <-> (fit a < fit b)%R.
Proof. unfold rlt. destruct (Rlt_dec (fit a) (fit b)); split; intros; try assumption; try reflexivity; try discriminate. contradiction. Qed.
Lemma rlt_asym fit a b : rlt fit a b = true -> rlt fit b a = false.
Proof. rewrite rlt_iff. intros H. destruct (rlt fit b a) eqn:E; [|reflexivity]. apply rlt_iff in E. exfalso. exact (Rlt_asym _ _ H E). Qed.
Lemma rlt_trans fit a b c : rlt fit a b = true -> rlt fit b c = true -> rlt fit a c = true.
Proof. rewrite !rlt_iff. apply Rlt_trans. Qed.
Lemma key_lt_trans a b c : key_lt a b = true -> key_lt b c = true -> key_lt a c = true.
Proof.
  unfold key_lt. rewrite !Bool.orb_true_iff, !Bool.andb_true_iff, !Nat.ltb_lt, !Nat.eqb_eq, !Bool.negb_true_iff.
  assert (Q : forall u v, Qle_bool u v = false <-> (v < u)%Q).
  { intros u v. split; intro H.
    - apply Qnot_le_lt. intro E. apply Qle_bool_iff in E. congruence.
    - destruct (Qle_bool u v) eqn:E; [|reflexivity]. apply Qle_bool_iff in E. lra. }
  rewrite !Q. intros [H|[H H']] [G|[G G']]; [left; lia | left; lia | left; lia | right; split; [lia | lra]].
Qed.

Lemma sample_wins (fit : nat -> R) S x : NoDup S -> In x S ->
  wins (length S) (fun i j => negb (i =? j)) (fun i j => tournament fit S (i, j)) x + length (filter (fun y => rlt fit y x) S)
  = (length S - 1) + length (filter (rlt fit x) S).
Proof.
  intros NS Hx.
  assert (Rb : forall a b, Rleb (fit a) (fit b) = negb (rlt fit b a)).
  { intros a b. unfold Rleb, rlt. destruct (Rle_dec (fit a) (fit b)), (Rlt_dec (fit b) (fit a)); try reflexivity; exfalso;
      [eapply Rlt_not_le; eauto | apply n0; now apply Rnot_le_lt]. }
  rewrite (wins_pairs (fun a b => Rleb (fit a) (fit b)) false _ _ S x NS Hx).
  - assert (Irr : rlt fit x x = false) by (destruct (rlt fit x x) eqn:E; [apply rlt_asym in E as E'; congruence | reflexivity]).
    assert (A : others (fun y => negb (Rleb (fit y) (fit x))) x S = others (fun y => rlt fit x y) x S).
    { unfold others. apply filter_length_ext. intros y _. rewrite Rb, Bool.negb_involutive. reflexivity. }
    assert (B : others (fun y => Rleb (fit x) (fit y)) x S = others (fun y => negb (rlt fit y x)) x S).
    { unfold others. apply filter_length_ext. intros y _. now rewrite Rb. }
    pose proof (others_lt (rlt fit) x S (fun y E => rlt_asym fit _ _ E) Irr NS Hx) as H'.
    rewrite A, B. assert (1 <= length S) by (destruct S; [destruct Hx | cbn; lia]).
    change (fun y => rlt fit x y) with (rlt fit x). lia.
  - reflexivity.
  - intros i j Hi Hj E. apply Bool.negb_true_iff in E. unfold tournament. rewrite E.
    rewrite (nth_error_nth' S 0 Hi), (nth_error_nth' S 0 Hj). reflexivity.
Qed.
