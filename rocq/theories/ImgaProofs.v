(** Proofs about IMGA: islands, weighted choice, migration. *)
From Verif Require Import Spec Base DomModel DomProofs VarModel NsgaModel ImgaSpec ImgaModel.
From Coq Require Import QArith Lqa.
Local Open Scope nat_scope.

(** ---- set_nth ---- *)
Lemma nth_error_set_nth {A} (l : list A) : forall i j x, i < length l ->
  nth_error (set_nth i x l) j = if j =? i then Some x else nth_error l j.
Proof.
  induction l as [|a l IH]; intros i j x H; cbn in H; [lia|].
  destruct i, j; cbn; try reflexivity. apply IH. lia.
Qed.
Lemma set_nth_length {A} (l : list A) : forall i x, length (set_nth i x l) = length l.
Proof. induction l as [|a l IH]; intros [|i] x; cbn; congruence. Qed.

Lemma nth_error_same {A} (l l' : list A) : (forall i, nth_error l i = nth_error l' i) -> l = l'.
Proof.
  revert l'. induction l as [|a l IH]; intros [|b l'] H; [reflexivity | discriminate (H 0) | discriminate (H 0) |].
  pose proof (H 0) as H0. cbn in H0. injection H0 as ->. f_equal. apply IH. intros i. exact (H (S i)).
Qed.

(** ---- create_islands ---- *)
Definition share {A} (sz base r : nat) (pop : list A) (i : nat) : list A :=
  slice (i * sz) ((i + 1) * sz) pop ++ (if i <? r then match nth_error pop (base + i) with Some x => [x] | None => [] end else []).

Lemma map_set_nth {A B} (g : A -> B) (l : list A) i y : (forall a, nth_error l i = Some a -> g a = y) -> set_nth i y (map g l) = map g l.
Proof.
  revert i. induction l as [|a l IH]; intros [|i] H; cbn; try reflexivity.
  - f_equal. symmetry. apply H. reflexivity.
  - f_equal. apply IH. exact H.
Qed.

Lemma set_nth_map_seq {B} (g : nat -> B) n i y : i < n -> set_nth i y (map g (seq 0 n)) = map (fun j => if j =? i then y else g j) (seq 0 n).
Proof.
  intros H. apply nth_error_same. intros j. rewrite nth_error_set_nth by (rewrite map_length, seq_length; exact H).
  rewrite !nth_error_map. destruct (Nat.lt_ge_cases j n) as [Hj|Hj].
  - rewrite (nth_error_nth' (seq 0 n) 0) by (rewrite seq_length; exact Hj). rewrite seq_nth by exact Hj. cbn.
    destruct (j =? i); reflexivity.
  - replace (nth_error (seq 0 n) j) with (@None nat) by (symmetry; apply nth_error_None; rewrite seq_length; exact Hj). cbn.
    destruct (Nat.eqb_spec j i); [lia | reflexivity].
Qed.

Lemma append_rest_spec {A} (pop : list A) sz base n k : forall r, k <= n -> base + k <= length pop -> r <= k ->
  append_rest pop base (seq r (k - r)) (map (share sz base r pop) (seq 0 n)) = Some (map (share sz base k pop) (seq 0 n)).
Proof.
  intros r Hk Hb Hr. remember (k - r) as m eqn:Em. revert r Hr Em. induction m as [|m IH]; intros r Hr Em.
  - cbn. replace r with k by lia. reflexivity.
  - cbn [seq append_rest]. rewrite nth_error_map.
    assert (Es : nth_error (seq 0 n) r = Some r) by (rewrite (nth_error_nth' (seq 0 n) 0) by (rewrite seq_length; lia); rewrite seq_nth by lia; reflexivity).
    rewrite Es. cbn [option_map].
    destruct (nth_error pop (base + r)) as [x|] eqn:Ex; [|apply nth_error_None in Ex; lia].
    rewrite set_nth_map_seq by lia.
    replace (map (fun j => if j =? r then share sz base r pop r ++ [x] else share sz base r pop j) (seq 0 n)) with (map (share sz base (S r) pop) (seq 0 n)).
    + apply IH; lia.
    + apply map_ext. intros j. unfold share. destruct (Nat.eqb_spec j r) as [->|Hj].
      * rewrite Nat.ltb_irrefl, app_nil_r. rewrite (proj2 (Nat.ltb_lt r (S r))) by lia. rewrite Ex. reflexivity.
      * f_equal. destruct (Nat.ltb_spec j r), (Nat.ltb_spec j (S r)); try reflexivity; lia.
Qed.

Lemma create_islands_spec {A} n (pop : list A) : 1 <= n ->
  create_islands n pop = Some (map (share (length pop / n) (n * (length pop / n)) (length pop mod n) pop) (seq 0 n)).
Proof.
  intros Hn. unfold create_islands. destruct (Nat.eqb_spec n 0); [lia|].
  set (sz := length pop / n). set (r := length pop mod n).
  assert (Hr : r < n) by (apply Nat.mod_upper_bound; lia).
  assert (Hd : length pop = n * sz + r) by (apply Nat.div_mod; lia).
  replace (map (fun i => slice (i * sz) ((i + 1) * sz) pop) (seq 0 n)) with (map (share sz (n * sz) 0 pop) (seq 0 n)).
  - replace (seq 0 r) with (seq 0 (r - 0)) by (f_equal; lia). apply append_rest_spec; lia.
  - apply map_ext. intros i. unfold share. cbn. apply app_nil_r.
Qed.

Lemma slice_length {A} a b (l : list A) : a <= b -> b <= length l -> length (slice a b l) = b - a.
Proof. intros H1 H2. unfold slice. rewrite firstn_length, skipn_length. lia. Qed.

Lemma slices_concat {A} (pop : list A) sz n : n * sz <= length pop ->
  concat (map (fun i => slice (i * sz) ((i + 1) * sz) pop) (seq 0 n)) = firstn (n * sz) pop.
Proof.
  induction n as [|n IH]; intros H; [reflexivity|]. rewrite seq_S, map_app, concat_app, IH by lia. cbn [map concat Nat.add].
  rewrite app_nil_r. unfold slice. replace ((n + 1) * sz - n * sz) with sz by lia.
  rewrite <- (firstn_skipn (n * sz) (firstn (S n * sz) pop)). rewrite firstn_firstn. replace (Nat.min (n * sz) (S n * sz)) with (n * sz) by lia.
  f_equal. rewrite skipn_firstn_comm. f_equal. lia.
Qed.

Lemma extras_concat {A} (pop : list A) base r : base + r <= length pop -> forall n, r <= n ->
  concat (map (fun i => if i <? r then match nth_error pop (base + i) with Some x => [x] | None => [] end else []) (seq 0 n)) = firstn r (skipn base pop).
Proof.
  intros H. assert (G : forall n, concat (map (fun i => if i <? r then match nth_error pop (base + i) with Some x => [x] | None => [] end else []) (seq 0 n)) = firstn (Nat.min n r) (skipn base pop)).
  { induction n as [|n IH]; [reflexivity|]. rewrite seq_S, map_app, concat_app, IH. cbn [map concat Nat.add]. rewrite app_nil_r.
    destruct (Nat.ltb_spec n r).
    - replace (Nat.min n r) with n by lia. replace (Nat.min (S n) r) with (S n) by lia.
      destruct (nth_error pop (base + n)) as [x|] eqn:Ex; [|apply nth_error_None in Ex; lia].
      assert (Es : nth_error (skipn base pop) n = Some x).
      { rewrite <- Ex. clear. revert pop. induction base as [|b IH]; intros pop; [reflexivity|]. destruct pop; [destruct n; reflexivity|]. exact (IH pop). }
      clear - Es. revert n Es. induction (skipn base pop) as [|y l IHl]; intros n Es; [destruct n; discriminate|].
      destruct n; cbn in Es; [injection Es as ->; reflexivity|]. cbn [firstn app]. f_equal. now apply IHl.
    - rewrite app_nil_r. f_equal. lia. }
  intros n Hn. rewrite G. f_equal. lia.
Qed.

Lemma concat_map_app {A B} (g h : B -> list A) l : Permutation (concat (map (fun i => g i ++ h i) l)) (concat (map g l) ++ concat (map h l)).
Proof.
  induction l as [|x l IH]; cbn; [constructor|]. rewrite IH. rewrite <- !app_assoc. apply Permutation_app_head.
  rewrite !app_assoc. apply Permutation_app_tail. apply Permutation_app_comm.
Qed.

Lemma islands_permutation {A} n (pop : list A) islands : create_islands n pop = Some islands -> Permutation (concat islands) pop.
Proof.
  intros E. destruct (Nat.eq_dec n 0) as [->|Hn]; [discriminate|]. rewrite create_islands_spec in E by lia. injection E as <-.
  set (sz := length pop / n). set (r := length pop mod n).
  assert (Hr : r < n) by (apply Nat.mod_upper_bound; lia).
  assert (Hd : length pop = n * sz + r) by (apply Nat.div_mod; lia).
  unfold share. rewrite (concat_map_app (fun i => slice (i * sz) ((i + 1) * sz) pop)).
  rewrite slices_concat by lia. rewrite extras_concat by lia.
  rewrite (firstn_all2 (skipn (n * sz) pop)) by (rewrite skipn_length; lia). rewrite firstn_skipn. reflexivity.
Qed.

Lemma islands_sizes {A} n (pop : list A) islands : create_islands n pop = Some islands ->
  length islands = n /\
  forall i, i < n -> exists isl, nth_error islands i = Some isl /\
    length isl = length pop / n + (if i <? length pop mod n then 1 else 0).
Proof.
  intros E. destruct (Nat.eq_dec n 0) as [->|Hn]; [discriminate|]. rewrite create_islands_spec in E by lia. injection E as <-.
  split; [rewrite map_length, seq_length; reflexivity|]. intros i Hi. rewrite nth_error_map.
  rewrite (nth_error_nth' (seq 0 n) 0) by (rewrite seq_length; exact Hi). rewrite seq_nth by exact Hi. cbn [option_map Nat.add].
  eexists. split; [reflexivity|]. unfold share.
  set (sz := length pop / n). set (r := length pop mod n).
  assert (Hr : r < n) by (apply Nat.mod_upper_bound; lia).
  assert (Hd : length pop = n * sz + r) by (apply Nat.div_mod; lia).
  rewrite app_length, slice_length; [|lia | nia]. replace ((i + 1) * sz - i * sz) with sz by lia. f_equal.
  destruct (Nat.ltb_spec i r); [|reflexivity]. destruct (nth_error pop (n * sz + i)) eqn:Ex; [reflexivity|].
  apply nth_error_None in Ex. lia.
Qed.

(** ---- weighted_choice ---- *)
Definition qsum (l : list Q) : Q := fold_right Qplus 0%Q l.

Lemma total_weight_qsum {A} (choices : list (A * Q)) : (total_weight choices == qsum (map snd choices))%Q.
Proof.
  unfold total_weight. assert (G : forall s, (fold_left (fun s cw => s + snd cw) choices s == s + qsum (map snd choices))%Q).
  { induction choices as [|[c w] l IH]; intros s; cbn [fold_left map snd]; [unfold qsum; cbn; ring|]. rewrite IH. unfold qsum. cbn [fold_right]. ring. }
  rewrite G. ring.
Qed.

Lemma choice_loop_spec {A} (r : Q) : forall (choices : list (A * Q)) upto, (upto <= r)%Q ->
  match choice_loop r upto choices with
  | Some c => exists k w, nth_error choices k = Some (c, w) /\
      (upto + qsum (map snd (firstn k choices)) <= r < upto + qsum (map snd (firstn (S k) choices)))%Q
  | None => (upto + qsum (map snd choices) <= r)%Q
  end.
Proof.
  induction choices as [|[c w] l IH]; intros upto H; cbn [choice_loop].
  - cbn. lra.
  - destruct (Qle_bool (upto + w) r) eqn:E; cbn [negb].
    + apply Qle_bool_iff in E. specialize (IH (upto + w)%Q E). destruct (choice_loop r (upto + w) l) as [c'|].
      * destruct IH as (k & w' & Hn & H1 & H2). exists (S k), w'. split; [exact Hn|].
        change (firstn (S k) ((c, w) :: l)) with ((c, w) :: firstn k l). change (firstn (S (S k)) ((c, w) :: l)) with ((c, w) :: firstn (S k) l).
        cbn [map snd qsum fold_right] in *. fold (qsum (map snd (firstn k l))). fold (qsum (map snd (firstn (S k) l))). lra.
      * cbn. fold (qsum (map snd l)). lra.
    + exists 0, w. split; [reflexivity|]. cbn. split; [lra|]. assert (~ (upto + w <= r)%Q) by (intros X; apply Qle_bool_iff in X; congruence). lra.
Qed.

Lemma qsum_app a b : (qsum (a ++ b) == qsum a + qsum b)%Q.
Proof.
  induction a as [|x a IH]; cbn [app]; [unfold qsum at 2; cbn [fold_right]; ring|].
  change (x + qsum (a ++ b) == x + qsum a + qsum b)%Q. rewrite IH. ring.
Qed.
Lemma qsum_nonneg l : Forall (fun w => (0 <= w)%Q) l -> (0 <= qsum l)%Q.
Proof. induction 1 as [|x l Hx _ IH]; [apply Qle_refl|]. change (0 <= x + qsum l)%Q. lra. Qed.

Lemma cumulative_mono {A} (choices : list (A * Q)) j k : Forall (fun cw => (0 <= snd cw)%Q) choices -> j <= k ->
  (qsum (map snd (firstn j choices)) <= qsum (map snd (firstn k choices)))%Q.
Proof.
  intros HW Hjk. rewrite <- (firstn_skipn j (firstn k choices)). rewrite firstn_firstn. replace (Nat.min j k) with j by lia.
  rewrite map_app, qsum_app. assert (H : (0 <= qsum (map snd (skipn j (firstn k choices))))%Q).
  { apply qsum_nonneg. apply Forall_map. apply Forall_forall. intros x Hx. rewrite Forall_forall in HW. apply HW.
    rewrite <- (firstn_skipn k choices). apply in_or_app. left. rewrite <- (firstn_skipn j (firstn k choices)). apply in_or_app. now right. }
  lra.
Qed.

Lemma weighted_choice_at {A} (choices : list (A * Q)) (r : Q) k c w : Forall (fun cw => (0 <= snd cw)%Q) choices ->
  nth_error choices k = Some (c, w) ->
  (qsum (map snd (firstn k choices)) <= r < qsum (map snd (firstn (S k) choices)))%Q ->
  weighted_choice r choices = Some c.
Proof.
  intros HW Hk (H1 & H2). assert (R0 : (0 <= r)%Q) by (pose proof (cumulative_mono choices 0 k HW ltac:(lia)) as M; cbn in M; lra).
  pose proof (choice_loop_spec r choices 0%Q R0) as SP. unfold weighted_choice.
  destruct (choice_loop r 0 choices) as [c'|].
  - destruct SP as (k' & w' & Hk' & H3 & H4). assert (k' = k); [|subst; congruence].
    destruct (Nat.lt_trichotomy k k') as [L|[L|L]]; [exfalso | auto | exfalso].
    + pose proof (cumulative_mono choices (S k) k' HW ltac:(lia)). lra.
    + pose proof (cumulative_mono choices (S k') k HW ltac:(lia)). lra.
  - exfalso. pose proof (cumulative_mono choices (S k) (length choices) HW) as M. rewrite (firstn_all choices) in M.
    assert (S k <= length choices) by (apply nth_error_Some; congruence). specialize (M H). lra.
Qed.

(** ---- one emigrant ---- *)
Lemma remove_vec_some x : forall l r, remove_vec x l = Some r -> Permutation l (x :: r).
Proof.
  induction l as [|y l IH]; intros r H; cbn in H; [discriminate|].
  destruct (vec_eqb x y) eqn:E.
  - injection H as <-. apply vec_eqb_spec in E. subst. reflexivity.
  - destruct (remove_vec x l) as [r'|]; [|discriminate]. injection H as <-. rewrite (IH r' eq_refl). apply perm_swap.
Qed.
Lemma remove_vec_none x : forall l, remove_vec x l = None -> ~ In x l.
Proof.
  induction l as [|y l IH]; intros H Hin; [contradiction|]. destruct Hin as [E|E]; cbn in H.
  - subst. rewrite (proj2 (vec_eqb_spec x x) eq_refl) in H. discriminate.
  - destruct (vec_eqb x y); [discriminate|]. destruct (remove_vec x l); [discriminate|]. now apply IH.
Qed.

Lemma weights_pos n : Forall (fun w => (0 < w)%Q) (map (fun i => (1 / inject_Z (Z.of_nat (i + 1)))%Q) (seq 0 n)).
Proof.
  apply Forall_map, Forall_forall. intros i _. unfold Qdiv. rewrite Qmult_1_l. apply Qinv_lt_0_compat.
  change 0%Q with (inject_Z 0). rewrite <- Zlt_Qlt. lia.
Qed.

Lemma map_snd_combine {A B} : forall (l : list A) (r : list B), length r = length l -> map snd (combine l r) = r.
Proof. induction l as [|a l IH]; intros [|b r] H; cbn in *; try reflexivity; try discriminate. f_equal. apply IH. lia. Qed.

Lemma pick_refugee_ok f d u k current : (forall v : vec, length (f v : vec) = d) -> (0 <= u < 1)%Q -> current <> [] ->
  exists x current', pick_refugee f u k current = Some (x, current') /\ Permutation current (x :: current').
Proof.
  intros Hd Hu NE. unfold pick_refugee.
  destruct (paretofront_layers_correct vec f d current) as (layers & -> & HP & HNE & _); [intros x _; apply Hd|].
  set (ws := map (fun i => (1 / inject_Z (Z.of_nat (i + 1)))%Q) (seq 0 (length layers))).
  assert (Lw : length ws = length layers) by (unfold ws; rewrite map_length, seq_length; reflexivity).
  assert (Sn : map snd (combine layers ws) = ws) by (apply map_snd_combine; exact Lw).
  assert (LNE : layers <> []) by (intros ->; cbn in HP; apply Permutation_nil in HP; contradiction).
  assert (TP : (0 < qsum ws)%Q).
  { pose proof (weights_pos (length layers)) as W. fold ws in W. destruct ws as [|w ws']; [destruct layers; [contradiction | discriminate]|].
    inversion W as [|? ? W1 W2]; subst. change (0 < w + qsum ws')%Q. assert ((0 <= qsum ws')%Q) by (apply qsum_nonneg; eapply Forall_impl; [|exact W2]; intros ? ?; apply Qlt_le_weak; assumption). cbn beta in W1. lra. }
  set (choices := combine layers ws).
  assert (TT : (total_weight choices == qsum ws)%Q) by (rewrite total_weight_qsum; unfold choices; rewrite Sn; reflexivity).
  set (r := (u * total_weight choices)%Q).
  assert (R : (0 <= r < qsum ws)%Q) by (unfold r; rewrite TT; split; nra).
  pose proof (choice_loop_spec r choices 0%Q (proj1 R)) as SP. unfold weighted_choice.
  destruct (choice_loop r 0 choices) as [layer|]; [|exfalso; unfold choices in SP; rewrite Sn in SP; lra].
  destruct SP as (i & w & Hi & _). apply nth_error_In in Hi. unfold choices in Hi. apply in_combine_l in Hi.
  rewrite Forall_forall in HNE. pose proof (HNE layer Hi) as NEl. destruct layer as [|l0 layer'] eqn:El; [contradiction|]. rewrite <- El in *.
  destruct (nth_error layer (k mod length layer)) as [x|] eqn:Ex.
  2:{ apply nth_error_None in Ex. pose proof (Nat.mod_upper_bound k (length layer)). rewrite El in *. cbn [length] in *. lia. }
  assert (Hx : In x current) by (eapply Permutation_in; [exact HP|]; apply in_concat; exists layer; split; [exact Hi | exact (nth_error_In _ _ Ex)]).
  destruct (remove_vec x current) as [c'|] eqn:Er; [|exfalso; exact (remove_vec_none _ _ Er Hx)].
  exists x, c'. split; [reflexivity | now apply remove_vec_some].
Qed.


Lemma pick_refugees_ok f d : (forall v : vec, length (f v : vec) = d) -> forall draws current, Forall draw_ok draws -> length draws <= length current ->
  exists r rest, pick_refugees f draws current = Some r /\ length r = length draws /\ Permutation current (r ++ rest).
Proof.
  intros Hd. induction draws as [|[u k] draws IH]; intros current HU HL; cbn [pick_refugees].
  - exists [], current. auto.
  - inversion HU as [|? ? H1 H2]; subst. cbn in HL. unfold draw_ok in H1. cbn [fst] in H1.
    destruct (pick_refugee_ok f d u k current Hd H1) as (x & c' & -> & HP); [intros ->; cbn in HL; lia|].
    pose proof (Permutation_length HP) as L. cbn in L. destruct (IH c' H2) as (r & rest & -> & Lr & HP'); [lia|].
    exists (x :: r), rest. split; [reflexivity|]. split; [cbn; congruence|]. rewrite HP. cbn. now apply perm_skip.
Qed.

Lemma take_out_ok {ind} (value : ind -> vec) : forall inds wanted rest, Permutation (map value inds) (wanted ++ rest) ->
  exists out kept, take_out value wanted inds = (out, kept) /\ Permutation (map value out) wanted /\ Permutation inds (out ++ kept).
Proof.
  induction inds as [|p inds IH]; intros wanted rest HP; cbn [take_out].
  - cbn in HP. apply Permutation_nil in HP. apply app_eq_nil in HP. destruct HP as (-> & ->). exists [], []. auto.
  - cbn [map] in HP. destruct (remove_vec (value p) wanted) as [w'|] eqn:E.
    + apply remove_vec_some in E. destruct (IH w' rest) as (out & kept & -> & H1 & H2).
      { apply (Permutation_cons_inv (a := value p)). rewrite HP, E. reflexivity. }
      exists (p :: out), kept. split; [reflexivity|]. split; [cbn; rewrite E; now apply perm_skip | cbn; now apply perm_skip].
    + apply remove_vec_none in E. assert (Hr : In (value p) rest).
      { assert (H : In (value p) (wanted ++ rest)) by (eapply Permutation_in; [exact HP | now left]). apply in_app_or in H. tauto. }
      apply in_split in Hr. destruct Hr as (r1 & r2 & ->).
      destruct (IH wanted (r1 ++ r2)) as (out & kept & -> & H1 & H2).
      { apply (Permutation_cons_inv (a := value p)). rewrite HP. rewrite !app_assoc. symmetry. apply Permutation_middle. }
      exists out, (p :: kept). split; [reflexivity|]. split; [exact H1|]. rewrite H2. apply Permutation_middle.
Qed.

Lemma emigrate_ok {ind} (value : ind -> vec) f d draws s : (forall v : vec, length (f v : vec) = d) -> Forall draw_ok draws -> length draws <= length (isl_inds s) ->
  exists out s', emigrate value f draws s = Some (out, s') /\ length out = length draws /\ Permutation (isl_inds s) (out ++ isl_inds s') /\
    visa_office s' = visa_office s /\ length (all_refugees s') = length (all_refugees s) + length draws.
Proof.
  intros Hd HU HL. unfold emigrate.
  destruct (pick_refugees_ok f d Hd draws (map value (isl_inds s)) HU) as (r & rest & -> & Lr & HP); [rewrite map_length; exact HL|].
  destruct (take_out_ok value (isl_inds s) r rest HP) as (out & kept & -> & H1 & H2).
  eexists _, _. split; [reflexivity|]. cbn. split; [|split; [exact H2|]].
  - apply Permutation_length in H1. rewrite map_length in H1. congruence.
  - split; [reflexivity|]. rewrite app_length. congruence.
Qed.

(** ---- all packets ---- *)
Definition from (k : nat) (e : nat * nat) : bool := fst e =? k.
Definition to (k : nat) (e : nat * nat) : bool := snd e =? k.

Section Migration.
  Context {ind : Type}.
  Variable value : ind -> vec.
  Variable f : vec -> vec.
  Variable d : nat.
  Hypothesis f_dim : forall v, length (f v) = d.
  Variable m : nat.
  Variable draws : nat -> nat -> list (Q * nat).
  Hypothesis draws_ok : forall i n, Forall draw_ok (draws i n) /\ length (draws i n) = m.

  Lemma send_all_ok : forall edges (islands : list (island ind)), NoDup edges ->
    Forall (fun e => fst e < length islands /\ snd e < length islands) edges ->
    (forall k s, nth_error islands k = Some s -> m * length (filter (from k) edges) <= length (isl_inds s)) ->
    exists (sent : nat * nat -> list ind) islands', send_all value f draws edges islands = Some islands' /\
      (forall e, In e edges -> length (sent e) = m) /\ length islands' = length islands /\
      forall k s, nth_error islands k = Some s -> exists s', nth_error islands' k = Some s' /\
        Permutation (isl_inds s) (isl_inds s' ++ concat (map sent (filter (from k) edges))) /\
        visa_office s' = visa_office s ++ concat (map sent (filter (to k) edges)) /\
        length (all_refugees s') = length (all_refugees s) + m * length (filter (from k) edges).
  Proof.
    induction edges as [|[i n] edges IH]; intros islands ND HR HS.
    - exists (fun _ => []), islands. split; [reflexivity|]. split; [intros e []|]. split; [reflexivity|].
      intros k s Hs. exists s. cbn. rewrite !app_nil_r. split; [exact Hs|]. split; [reflexivity|]. split; [reflexivity | lia].
    - inversion ND as [|? ? Hnin ND']; subst. inversion HR as [|? ? (Hi & Hn) HR']; subst. cbn [fst snd] in *. cbn [send_all].
      destruct (nth_error islands i) as [src|] eqn:Es; [|apply nth_error_None in Es; lia].
      destruct (draws_ok i n) as (D1 & D2).
      destruct (emigrate_ok value f d (draws i n) src f_dim D1) as (out & src' & -> & Lo & HP & Hv & Hr).
      { specialize (HS i src Es). cbn [filter] in HS. unfold from in HS at 1. cbn [fst] in HS. rewrite Nat.eqb_refl in HS. cbn [length] in HS. rewrite D2. nia. }
      rewrite D2 in Lo, Hr.
      destruct (nth_error (set_nth i src' islands) n) as [dst|] eqn:Ed; [|apply nth_error_None in Ed; rewrite set_nth_length in Ed; lia].
      set (islands1 := set_nth n (immigrate out dst) (set_nth i src' islands)).
      assert (L1 : length islands1 = length islands) by (unfold islands1; rewrite !set_nth_length; reflexivity).
      (* the islands after this packet *)
      assert (At : forall k s, nth_error islands k = Some s -> exists s1, nth_error islands1 k = Some s1 /\
        Permutation (isl_inds s) (isl_inds s1 ++ (if i =? k then out else [])) /\
        visa_office s1 = visa_office s ++ (if n =? k then out else []) /\
        length (all_refugees s1) = length (all_refugees s) + (if i =? k then m else 0)).
      { intros k s Hk. unfold islands1. rewrite nth_error_set_nth by (rewrite set_nth_length; exact Hn).
        rewrite nth_error_set_nth in Ed |- * by exact Hi.
        destruct (Nat.eqb_spec k n) as [->|Kn].
        - rewrite Nat.eqb_refl. eexists. split; [reflexivity|]. cbn [isl_inds visa_office all_refugees immigrate].
          destruct (Nat.eqb_spec n i) as [->|Ni].
          + rewrite Nat.eqb_refl. injection Ed as <-. rewrite Es in Hk. injection Hk as <-.
            split; [rewrite HP; apply Permutation_app_comm|]. split; [rewrite Hv; reflexivity | exact Hr].
          + replace (i =? n) with false by (symmetry; apply Nat.eqb_neq; auto). rewrite Ed in Hk. injection Hk as <-. rewrite app_nil_r. split; [reflexivity|]. split; [reflexivity | lia].
        - replace (n =? k) with false by (symmetry; apply Nat.eqb_neq; auto). rewrite app_nil_r.
          destruct (Nat.eqb_spec k i) as [->|Ki].
          + rewrite Nat.eqb_refl. rewrite Es in Hk. injection Hk as <-. exists src'. split; [reflexivity|]. split; [rewrite HP; apply Permutation_app_comm|]. auto.
          + replace (i =? k) with false by (symmetry; apply Nat.eqb_neq; auto). exists s. split; [exact Hk|]. rewrite app_nil_r. split; [reflexivity|]. split; [reflexivity | lia]. }
      destruct (IH islands1 ND') as (sent & islands' & E & Hsent & L' & Post).
      { rewrite L1. exact HR'. }
      { intros k s1 Hk. assert (Lk : k < length islands) by (rewrite <- L1; apply nth_error_Some; congruence).
        destruct (nth_error islands k) as [s|] eqn:Ek; [|apply nth_error_None in Ek; lia].
        destruct (At k s Ek) as (s1' & Hk' & P1 & _). rewrite Hk in Hk'. injection Hk' as <-.
        specialize (HS k s Ek). cbn [filter] in HS. unfold from in HS at 1. cbn [fst] in HS. apply Permutation_length in P1. rewrite app_length in P1.
        destruct (i =? k); cbn [length] in *; nia. }
      exists (fun e => if (fst e =? i) && (snd e =? n) then out else sent e), islands'. split; [exact E|].
      assert (Ext : forall g : nat * nat -> bool, concat (map (fun e => if (fst e =? i) && (snd e =? n) then out else sent e) (filter g edges)) = concat (map sent (filter g edges))).
      { intros g. f_equal. apply map_ext_in. intros [a b] He. apply filter_In in He. cbn [fst snd].
        destruct (Nat.eqb_spec a i) as [->|]; [|reflexivity]. destruct (Nat.eqb_spec b n) as [->|]; [|reflexivity]. exfalso. apply Hnin. apply He. }
      split; [|split; [congruence|]].
      + intros [a b] He. cbn [fst snd]. destruct ((a =? i) && (b =? n)) eqn:Eab; [exact Lo|]. destruct He as [He|He]; [|now apply Hsent].
        injection He as <- <-. rewrite !Nat.eqb_refl in Eab. discriminate.
      + intros k s Hk. destruct (At k s Hk) as (s1 & Hk1 & P1 & V1 & R1). destruct (Post k s1 Hk1) as (s' & Hk' & P2 & V2 & R2).
        exists s'. split; [exact Hk'|]. cbn [filter]. change (from k (i, n)) with (i =? k). change (to k (i, n)) with (n =? k).
        split; [|split].
        * rewrite P1, P2. destruct (i =? k); cbn [map concat]; rewrite ?Ext, ?app_nil_r.
          -- cbn [fst snd]. rewrite !Nat.eqb_refl. cbn [andb]. rewrite <- app_assoc. apply Permutation_app_head. apply Permutation_app_comm.
          -- reflexivity.
        * rewrite V2, V1. destruct (n =? k); cbn [map concat]; rewrite ?Ext, <- ?app_assoc; [|reflexivity].
          cbn [fst snd]. rewrite !Nat.eqb_refl. reflexivity.
        * rewrite R2, R1. destruct (i =? k); cbn [length]; lia.
  Qed.
End Migration.

(** ---- the edges ---- *)
Lemma existsb_eqb k l : existsb (Nat.eqb k) l = true <-> In k l.
Proof.
  rewrite existsb_exists. split.
  - intros (x & Hx & E). apply Nat.eqb_eq in E. now subst.
  - intros H. exists k. split; [exact H | apply Nat.eqb_refl].
Qed.

Lemma filter_concat_map {A B} (g : B -> bool) (h : A -> list B) l : filter g (concat (map h l)) = concat (map (fun x => filter g (h x)) l).
Proof. induction l as [|a l IH]; cbn; [reflexivity|]. rewrite filter_app, IH. reflexivity. Qed.

Lemma concat_if_seq {B} (x : list B) k n : k < n -> concat (map (fun i => if i =? k then x else []) (seq 0 n)) = x.
Proof.
  intros H. assert (G : forall n, concat (map (fun i => if i =? k then x else []) (seq 0 n)) = if k <? n then x else []).
  { clear. induction n as [|n IH]; [reflexivity|]. rewrite seq_S, map_app, concat_app, IH. cbn [map concat Nat.add]. rewrite app_nil_r.
    destruct (Nat.ltb_spec k n), (Nat.ltb_spec k (S n)), (Nat.eqb_spec n k); try lia; rewrite ?app_nil_r; reflexivity. }
  rewrite G. destruct (Nat.ltb_spec k n); [reflexivity | lia].
Qed.

Lemma edges_from topo n k : k < n -> filter (from k) (edges_of topo n) = map (pair k) (nth k topo []).
Proof.
  intros H. unfold edges_of. rewrite filter_concat_map. rewrite <- (concat_if_seq (map (pair k) (nth k topo [])) k n H).
  f_equal. apply map_ext. intros i. destruct (Nat.eqb_spec i k) as [->|Hi].
  - apply filter_all. intros e He. apply in_map_iff in He. destruct He as (j & <- & _). apply Nat.eqb_refl.
  - induction (nth i topo []) as [|j l IH]; [reflexivity|]. cbn [map filter]. unfold from at 1. cbn [fst].
    replace (i =? k) with false by (symmetry; now apply Nat.eqb_neq). exact IH.
Qed.

Lemma edges_to topo n k : Forall (@NoDup nat) topo ->
  filter (to k) (edges_of topo n) = map (fun i => (i, k)) (filter (fun i => existsb (Nat.eqb k) (nth i topo [])) (seq 0 n)).
Proof.
  intros ND. unfold edges_of. rewrite filter_concat_map. induction (seq 0 n) as [|i l IH]; [reflexivity|]. cbn [map concat filter].
  assert (E : filter (to k) (map (pair i) (nth i topo [])) = if existsb (Nat.eqb k) (nth i topo []) then [(i, k)] else []).
  { assert (N : NoDup (nth i topo [])).
    { destruct (nth_in_or_default i topo []) as [H|H]; [rewrite Forall_forall in ND; now apply ND | rewrite H; constructor]. }
    clear -N. induction (nth i topo []) as [|j r IHr]; [reflexivity|]. inversion N as [|? ? N1 N2]; subst. cbn [map filter existsb].
    change (to k (i, j)) with (j =? k). rewrite (Nat.eqb_sym k j). destruct (Nat.eqb_spec j k) as [->|Hj]; cbn [orb].
    - rewrite IHr by exact N2. destruct (existsb (Nat.eqb k) r) eqn:Ex; [|reflexivity]. apply existsb_eqb in Ex. contradiction.
    - now apply IHr. }
  rewrite E, IH. destruct (existsb (Nat.eqb k) (nth i topo [])); reflexivity.
Qed.

Lemma edges_NoDup topo n : Forall (@NoDup nat) topo -> NoDup (edges_of topo n).
Proof.
  intros ND. unfold edges_of. assert (G : forall l : list nat, NoDup l -> NoDup (concat (map (fun i => map (pair i) (nth i topo [])) l))).
  { induction l as [|i l IH]; intros N; cbn; [constructor|]. inversion N as [|? ? N1 N2]; subst. apply NoDup_app_disj.
    - apply FinFun.Injective_map_NoDup; [intros a b H; now injection H|].
      destruct (nth_in_or_default i topo []) as [H|H]; [rewrite Forall_forall in ND; now apply ND | rewrite H; constructor].
    - now apply IH.
    - intros e He He'. apply in_map_iff in He. destruct He as (j & <- & _). apply in_concat in He'. destruct He' as (x & Hx & Hj).
      apply in_map_iff in Hx. destruct Hx as (i' & <- & Hi'). apply in_map_iff in Hj. destruct Hj as (j' & Ej & _). injection Ej as -> _. contradiction. }
  apply G, seq_NoDup.
Qed.

Lemma edges_range topo n m0 : (forall i j, i < n -> In j (nth i topo []) -> j < m0) -> Forall (fun e => fst e < n /\ snd e < m0) (edges_of topo n).
Proof.
  intros H. apply Forall_forall. intros [i j] He. unfold edges_of in He. apply in_concat in He. destruct He as (x & Hx & Hj).
  apply in_map_iff in Hx. destruct Hx as (i' & <- & Hi'). apply in_seq in Hi'. apply in_map_iff in Hj. destruct Hj as (j' & Ej & Hj'). injection Ej as -> ->.
  cbn. split; [lia | apply (H i j); [lia | exact Hj']].
Qed.

(** grouping the packets by sender or by receiver *)
Lemma grouped {A B} (sent : A -> list B) (g : A -> nat) n edges : Forall (fun e => g e < n) edges ->
  Permutation (concat (map (fun k => concat (map sent (filter (fun e => g e =? k) edges))) (seq 0 n))) (concat (map sent edges)).
Proof.
  induction 1 as [|e edges He _ IH].
  - cbn. induction (seq 0 n) as [|a l IHl]; [constructor | exact IHl].
  - cbn [map concat filter]. transitivity (concat (map (fun k => (if k =? g e then sent e else []) ++ concat (map sent (filter (fun e => g e =? k) edges))) (seq 0 n))).
    + apply Permutation_refl'. f_equal. apply map_ext. intros k. rewrite (Nat.eqb_sym k (g e)). destruct (g e =? k); reflexivity.
    + rewrite concat_map_app. rewrite concat_if_seq by exact He. now apply Permutation_app_head.
Qed.

Lemma by_position {A B} (h : A -> list B) (l : list A) : map h l = map (fun k => match nth_error l k with Some a => h a | None => [] end) (seq 0 (length l)).
Proof.
  apply nth_error_same. intros i. rewrite !nth_error_map. destruct (nth_error l i) as [a|] eqn:E; cbn [option_map].
  - assert (i < length l) by (apply nth_error_Some; congruence). rewrite (nth_error_nth' (seq 0 (length l)) 0) by (rewrite seq_length; exact H).
    rewrite seq_nth by exact H. cbn. rewrite E. reflexivity.
  - assert (length l <= i) by (now apply nth_error_None). replace (nth_error (seq 0 (length l)) i) with (@None nat); [reflexivity|].
    symmetry. apply nth_error_None. rewrite seq_length. exact H.
Qed.

Lemma assimilate_all_ok {ind} (admit : ind -> ind) : forall l, Forall (fun s => length (visa_office s) = length (all_refugees s)) l ->
  assimilate_all admit l = Some (map (fun s => {| isl_inds := isl_inds s ++ map admit (visa_office s); visa_office := []; all_refugees := [] |}) l).
Proof.
  induction 1 as [|s l H _ IH]; [reflexivity|]. cbn [assimilate_all map]. unfold assimilate. rewrite H, Nat.eqb_refl, IH. reflexivity.
Qed.
Lemma assimilate_all_bad {ind} (admit : ind -> ind) : forall l s, In s l -> length (visa_office s) <> length (all_refugees s) -> assimilate_all admit l = None.
Proof.
  induction l as [|a l IH]; intros s Hs H; [contradiction|]. cbn [assimilate_all]. destruct Hs as [->|Hs].
  - unfold assimilate. rewrite (proj2 (Nat.eqb_neq _ _) H). reflexivity.
  - rewrite (IH s Hs H). destruct (assimilate admit a); reflexivity.
Qed.

(** in- and out-degree agree in a symmetric topology *)
Lemma degrees topo k : Forall (@NoDup nat) topo -> valid_topology (length topo) topo -> k < length topo ->
  Permutation (nth k topo []) (senders topo k).
Proof.
  intros ND (_ & Hr & Hs) Hk. apply NoDup_Permutation.
  - rewrite Forall_forall in ND. apply ND. now apply nth_In.
  - apply NoDup_filter, seq_NoDup.
  - intros i. unfold senders. rewrite filter_In, in_seq, existsb_eqb. cbn.
    assert (N : forall a b, a < length topo -> In b (nth a topo []) <-> neighbour topo a b).
    { intros a b Ha. unfold neighbour. rewrite (nth_error_nth' topo [] Ha). split; [eauto|]. intros (l & El & Hl). injection El as <-. exact Hl. }
    split.
    + intros Hi. apply N in Hi; [|exact Hk]. pose proof (Hr _ _ Hi) as Hi'. split; [lia|]. apply N; [exact Hi'|]. now apply Hs.
    + intros ((_ & Hi) & H). apply N in H; [|lia]. apply N; [exact Hk|]. now apply Hs.
Qed.

Section Balance.
  Context {ind : Type}.
  Variable value : ind -> vec.
  Variable admit : ind -> ind.
  Variable f : vec -> vec.
  Variable d : nat.
  Hypothesis f_dim : forall v, length (f v) = d.
  Variable m : nat.
  Variable draws : nat -> nat -> list (Q * nat).
  Hypothesis draws_ok : forall i n, Forall draw_ok (draws i n) /\ length (draws i n) = m.
  Variable topo : list (list nat).
  Hypothesis topo_sets : Forall (@NoDup nat) topo.
  Variable islands : list (island ind).
  Hypothesis lengths : length topo = length islands.
  Hypothesis range : forall i j, neighbour topo i j -> j < length islands.
  Hypothesis enough : forall i s, nth_error islands i = Some s ->
    visa_office s = [] /\ all_refugees s = [] /\ m * length (nth i topo []) <= length (isl_inds s).

  Let n := length islands.

  Lemma sends : exists (sent : nat * nat -> list ind) islands', send_all value f draws (edges_of topo n) islands = Some islands' /\
    (forall e, In e (edges_of topo n) -> length (sent e) = m) /\ length islands' = n /\
    (forall k s, nth_error islands k = Some s -> exists s', nth_error islands' k = Some s' /\
      Permutation (isl_inds s) (isl_inds s' ++ concat (map (fun j => sent (k, j)) (nth k topo []))) /\
      visa_office s' = concat (map (fun i => sent (i, k)) (senders topo k)) /\
      length (all_refugees s') = m * length (nth k topo [])).
  Proof.
    assert (R : Forall (fun e => fst e < n /\ snd e < n) (edges_of topo n)).
    { apply edges_range. intros i j Hi Hj. apply (range i). exists (nth i topo []). split; [|exact Hj]. apply nth_error_nth'. unfold n in Hi. lia. }
    destruct (send_all_ok value f d f_dim m draws draws_ok (edges_of topo n) islands) as (sent & islands' & E & H1 & H2 & H3).
    - now apply edges_NoDup.
    - exact R.
    - intros k s Hk. rewrite edges_from by (apply nth_error_Some; congruence). rewrite map_length. now apply enough.
    - exists sent, islands'. split; [exact E|]. split; [exact H1|]. split; [exact H2|].
      intros k s Hk. destruct (H3 k s Hk) as (s' & Hk' & P & V & L). exists s'. split; [exact Hk'|].
      assert (Lk : k < n) by (apply nth_error_Some; congruence). destruct (enough k s Hk) as (V0 & L0 & _).
      rewrite edges_from in P, L by exact Lk. rewrite edges_to in V by assumption. rewrite map_length in L. rewrite map_map in P, V.
      rewrite V0 in V. rewrite L0 in L. unfold senders. rewrite lengths. auto.
  Qed.

  Lemma packets_length (sent : nat * nat -> list ind) (l : list nat) (g : nat -> nat * nat) :
    (forall i, In i l -> length (sent (g i)) = m) -> length (concat (map (fun i => sent (g i)) l)) = m * length l.
  Proof.
    induction l as [|i l IH]; intros H; cbn; [lia|]. rewrite app_length, IH by (intros; apply H; now right). rewrite H by (now left). lia.
  Qed.

  Lemma edge_in i j : i < n -> In j (nth i topo []) -> In (i, j) (edges_of topo n).
  Proof.
    intros Hi Hj. unfold edges_of. apply in_concat. exists (map (pair i) (nth i topo [])). split; [|now apply in_map].
    apply in_map_iff. exists i. split; [reflexivity | apply in_seq; lia].
  Qed.
  Lemma sender_in i k : In i (senders topo k) -> i < n /\ In k (nth i topo []).
  Proof. unfold senders. rewrite filter_In, in_seq, existsb_eqb, lengths. intros ((_ & H) & H'). split; [exact H | exact H']. Qed.

  Lemma migration_balanced : (forall k, k < n -> length (senders topo k) = length (nth k topo [])) ->
    exists (sent : nat -> nat -> list ind) (kept : nat -> list ind) islands', migration value admit f topo draws islands = Some islands' /\
      length islands' = n /\
      (forall i j, i < n -> In j (nth i topo []) -> length (sent i j) = m) /\
      (forall k s, nth_error islands k = Some s -> exists s', nth_error islands' k = Some s' /\
         visa_office s' = [] /\ all_refugees s' = [] /\ length (isl_inds s') = length (isl_inds s) /\
         Permutation (isl_inds s) (kept k ++ concat (map (sent k) (nth k topo []))) /\
         isl_inds s' = kept k ++ map admit (concat (map (fun i => sent i k) (senders topo k)))) /\
      exists stay go, Permutation (concat (map isl_inds islands)) (stay ++ go) /\ Permutation (concat (map isl_inds islands')) (stay ++ map admit go).
  Proof.
    intros Bal. destruct sends as (sent & is1 & E & H1 & H2 & H3).
    set (kept := fun k => match nth_error is1 k with Some s => isl_inds s | None => [] end).
    assert (Bal' : Forall (fun s => length (visa_office s) = length (all_refugees s)) is1).
    { apply Forall_forall. intros s1 Hs1. apply In_nth_error in Hs1. destruct Hs1 as (k & Hk1).
      assert (Lk : k < n) by (rewrite <- H2; apply nth_error_Some; congruence).
      destruct (nth_error islands k) as [s|] eqn:Es; [|apply nth_error_None in Es; unfold n in Lk; lia].
      destruct (H3 k s Es) as (s' & Hk' & _ & V & L). rewrite Hk1 in Hk'. injection Hk' as <-.
      rewrite V, L. rewrite (packets_length sent _ (fun i => (i, k))).
      - rewrite Bal by exact Lk. reflexivity.
      - intros i Hi. apply H1. apply sender_in in Hi. apply edge_in; tauto. }
    exists (fun i j => sent (i, j)), kept, (map (fun s => {| isl_inds := isl_inds s ++ map admit (visa_office s); visa_office := []; all_refugees := [] |}) is1).
    split; [unfold migration; fold n; rewrite lengths; fold n; rewrite Nat.ltb_irrefl, E; now apply assimilate_all_ok|].
    split; [rewrite map_length; exact H2|]. split; [intros i j Hi Hj; apply H1; now apply edge_in|].
    assert (At : forall k s, nth_error islands k = Some s -> exists s', nth_error is1 k = Some s' /\ kept k = isl_inds s' /\
      Permutation (isl_inds s) (kept k ++ concat (map (fun j => sent (k, j)) (nth k topo []))) /\
      visa_office s' = concat (map (fun i => sent (i, k)) (senders topo k))).
    { intros k s Hs. destruct (H3 k s Hs) as (s' & Hk' & P & V & L). exists s'. unfold kept. rewrite Hk'. auto. }
    split.
    - intros k s Hs. destruct (At k s Hs) as (s' & Hk' & Ek & P & V). assert (Lk : k < n) by (apply nth_error_Some; congruence).
      eexists. rewrite nth_error_map, Hk'. split; [reflexivity|]. cbn [isl_inds visa_office all_refugees]. split; [reflexivity|]. split; [reflexivity|].
      split; [|split; [exact P | rewrite <- Ek, V; reflexivity]].
      rewrite (Permutation_length P), !app_length, map_length, Ek, V. f_equal.
      rewrite (packets_length sent _ (fun i => (i, k))), (packets_length sent _ (fun j => (k, j))).
      + rewrite Bal by exact Lk. reflexivity.
      + intros j Hj. apply H1. now apply edge_in.
      + intros i Hi. apply H1. apply sender_in in Hi. apply edge_in; tauto.
    - assert (R : Forall (fun e => fst e < n /\ snd e < n) (edges_of topo n)).
      { apply edges_range. intros i j Hi Hj. apply (range i). exists (nth i topo []). split; [|exact Hj]. apply nth_error_nth'. unfold n in Hi. lia. }
      exists (concat (map kept (seq 0 n))), (concat (map sent (edges_of topo n))). split.
      + rewrite (by_position isl_inds islands). fold n.
        transitivity (concat (map (fun k => kept k ++ concat (map sent (filter (fun e => fst e =? k) (edges_of topo n)))) (seq 0 n))).
        * assert (G : forall l, (forall k, In k l -> k < n) -> Permutation (concat (map (fun k => match nth_error islands k with Some a => isl_inds a | None => [] end) l))
              (concat (map (fun k => kept k ++ concat (map sent (filter (fun e => fst e =? k) (edges_of topo n)))) l))).
          { induction l as [|k l IHl]; intros Hl; cbn [map concat]; [constructor|]. apply Permutation_app; [|apply IHl; intros; apply Hl; now right].
            assert (Lk : k < n) by (apply Hl; now left). destruct (nth_error islands k) as [s|] eqn:Es; [|apply nth_error_None in Es; unfold n in Lk; lia].
            destruct (At k s Es) as (s' & _ & _ & P & _). change (fun e : nat * nat => fst e =? k) with (from k). rewrite edges_from by exact Lk. rewrite map_map. exact P. }
          apply G. intros k Hk. apply in_seq in Hk. lia.
        * rewrite concat_map_app. apply Permutation_app_head. apply grouped. eapply Forall_impl; [|exact R]; cbn; tauto.
      + rewrite map_map. cbn [isl_inds]. rewrite (concat_map_app isl_inds (fun s => map admit (visa_office s)) is1). apply Permutation_app.
        * rewrite (by_position isl_inds is1), H2. reflexivity.
        * rewrite <- (map_map visa_office (map admit)), <- concat_map. apply Permutation_map. rewrite (by_position visa_office is1), H2.
          rewrite <- (grouped sent (fun e => snd e) n (edges_of topo n)) by (eapply Forall_impl; [|exact R]; cbn; tauto).
          apply Permutation_refl'. f_equal. apply map_ext_in. intros k Hk. apply in_seq in Hk.
          destruct (nth_error islands k) as [s|] eqn:Es; [|apply nth_error_None in Es; unfold n in Hk; lia].
          destruct (At k s Es) as (s' & -> & _ & _ & V). rewrite V. change (fun e : nat * nat => snd e =? k) with (to k). rewrite edges_to by assumption. rewrite map_map. unfold senders. rewrite lengths. reflexivity.
  Qed.

  Lemma migration_unbalanced k : 1 <= m -> k < n -> length (senders topo k) <> length (nth k topo []) -> migration value admit f topo draws islands = None.
  Proof.
    intros Hm Hk Un. destruct sends as (sent & is1 & E & H1 & H2 & H3).
    unfold migration. fold n. rewrite lengths. fold n. rewrite Nat.ltb_irrefl, E.
    destruct (nth_error islands k) as [s|] eqn:Es; [|apply nth_error_None in Es; unfold n in Hk; lia].
    destruct (H3 k s Es) as (s' & Hk' & _ & V & L). apply (assimilate_all_bad admit _ s'); [exact (nth_error_In _ _ Hk')|].
    rewrite V, L. rewrite (packets_length sent _ (fun i => (i, k))); [nia|].
    intros i Hi. apply H1. apply sender_in in Hi. apply edge_in; tauto.
  Qed.
End Balance.

Lemma islands_partition {A} (n : nat) (population : list A) : 1 <= n ->
  exists islands, create_islands n population = Some islands /\ length islands = n /\
    Permutation (concat islands) population /\
    (forall i a, nth_error islands i = Some a -> length a = length population / n + (if i <? length population mod n then 1 else 0)).
Proof.
  intros Hn. destruct (create_islands n population) as [islands|] eqn:E; [|rewrite (create_islands_spec n population Hn) in E; discriminate].
  exists islands. split; [reflexivity|]. destruct (islands_sizes n population islands E) as (L & S0).
  split; [exact L|]. split; [eapply islands_permutation; exact E|].
  intros i a Ha. assert (Hi : i < n) by (rewrite <- L; apply nth_error_Some; congruence). destruct (S0 i Hi) as (isl & E1 & E2). rewrite Ha in E1. injection E1 as <-. exact E2.
Qed.
