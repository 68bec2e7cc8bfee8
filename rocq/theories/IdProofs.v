(** Proofs about decimal numbers and ids. *)
Require Import String Ascii List Arith NArith ZArith Lia Bool.
From Verif Require Import PyStr PyStrFacts IdModel IdSpec.
Import ListNotations.
Open Scope string_scope.

(** * Digits *)
Lemma digit_cases : forall n, (n < 10)%N ->
  (n = 0 \/ n = 1 \/ n = 2 \/ n = 3 \/ n = 4 \/ n = 5 \/ n = 6 \/ n = 7 \/ n = 8 \/ n = 9)%N.
Proof. intros; lia. Qed.

Lemma digit_ok : forall n, (n < 10)%N ->
  is_digit (digit n) = true /\ digit_value (digit n) = n /\
  nat_of_ascii (digit n) = 48 + N.to_nat n.
Proof.
  intros n H. apply digit_cases in H.
  repeat destruct H as [->|H]; try (subst n); repeat split; reflexivity.
Qed.

Lemma length_app_s : forall a b, String.length (a ++ b) = String.length a + String.length b.
Proof. induction a as [|x a IH]; intro b; cbn; [reflexivity|now rewrite IH]. Qed.

Lemma digits_value_app : forall a b acc,
  digits_value acc (a ++ b) =
  match digits_value acc a with Some n => digits_value n b | None => None end.
Proof.
  induction a as [|x a IH]; intros b acc; cbn [append digits_value]; [reflexivity|].
  destruct (is_digit x); [apply IH|reflexivity].
Qed.

Lemma pow10_S : forall k, (10 ^ N.of_nat (S k) = 10 * 10 ^ N.of_nat k)%N.
Proof. intro k. rewrite Nat2N.inj_succ, N.pow_succ_r'; reflexivity. Qed.

Lemma div10_lt : forall n k, (n < 10 ^ N.of_nat (S k))%N -> (n / 10 < 10 ^ N.of_nat k)%N.
Proof.
  intros n k H. rewrite pow10_S in H. apply N.div_lt_upper_bound; lia.
Qed.

Lemma mod10_lt : forall n, (n mod 10 < 10)%N.
Proof. intro n. apply N.mod_lt. lia. Qed.

Lemma str_fuel_value : forall f n, (n < 10 ^ N.of_nat f)%N -> (0 < f)%nat ->
  digits_value 0 (str_fuel f n) = Some n /\ str_fuel f n <> "".
Proof.
  induction f as [|f IH]; intros n H Hf; [lia|]. cbn [str_fuel].
  destruct (N.ltb_spec n 10) as [L|L].
  - destruct (digit_ok n L) as (H1 & H2 & _). cbn [digits_value].
    rewrite H1, H2. split; [f_equal; lia|discriminate].
  - destruct f as [|f]; [cbn in H; lia|].
    destruct (IH (n / 10)%N (div10_lt _ _ H) ltac:(lia)) as [H1 H2].
    rewrite digits_value_app, H1. cbn [digits_value].
    destruct (digit_ok (n mod 10) (mod10_lt n)) as (H3 & H4 & _). rewrite H3, H4.
    split; [f_equal; rewrite (N.div_mod n 10) at 3 by lia; reflexivity|].
    destruct (str_fuel (S f) (n / 10)); discriminate.
Qed.

Lemma size_nat_lt : forall n, (n < 10 ^ N.of_nat (S (N.size_nat n)))%N.
Proof.
  assert (H : forall p, (N.pos p < 2 ^ N.of_nat (Pos.size_nat p))%N).
  { induction p as [p IH|p IH|]; cbn [Pos.size_nat]; try rewrite Nat2N.inj_succ, N.pow_succ_r';
      try lia. }
  intros [|p]; [cbn; lia|]. specialize (H p). cbn [N.size_nat].
  rewrite pow10_S.
  assert (2 ^ N.of_nat (Pos.size_nat p) <= 10 ^ N.of_nat (Pos.size_nat p))%N
    by (apply N.pow_le_mono_l; lia).
  lia.
Qed.

Lemma int_str : forall n, int_of_str (str_of_N n) = Some n.
Proof.
  intro n. destruct (str_fuel_value (S (N.size_nat n)) n (size_nat_lt n) ltac:(lia)) as [H1 H2].
  unfold int_of_str, str_of_N in *. destruct (str_fuel _ n) eqn:E; [congruence|exact H1].
Qed.

Lemma str_of_N_inj : forall a b, str_of_N a = str_of_N b -> a = b.
Proof. intros a b H. assert (Some a = Some b) by (rewrite <- !int_str; congruence). congruence. Qed.

(** * Fixed width *)
Lemma fixed_length : forall k n, String.length (fixed k n) = k.
Proof.
  induction k as [|k IH]; intro n; cbn [fixed]; [reflexivity|].
  rewrite length_app_s, IH. cbn. lia.
Qed.

Lemma zeros_S : forall k, zeros (S k) = "0" ++ zeros k.
Proof. reflexivity. Qed.

Lemma fixed_zero : forall k, fixed k 0 = zeros k.
Proof.
  assert (Z : forall k, zeros k ++ "0" = zeros (S k)).
  { induction k as [|k IH]; [reflexivity|]. cbn [zeros append]. now rewrite IH. }
  induction k as [|k IH]; [reflexivity|]. cbn [fixed].
  change (0 / 10)%N with 0%N. rewrite IH. exact (Z k).
Qed.

Lemma str_fuel_fixed : forall k f n, (n < 10 ^ N.of_nat (S k))%N -> (n < 10 ^ N.of_nat f)%N ->
  (0 < f)%nat ->
  (String.length (str_fuel f n) <= S k)%nat /\
  zeros (S k - String.length (str_fuel f n)) ++ str_fuel f n = fixed (S k) n.
Proof.
  induction k as [|k IH]; intros f n H1 H2 Hf; destruct f as [|f]; try lia;
    cbn [str_fuel].
  - assert (n < 10)%N by (cbn in H1; lia).
    destruct (N.ltb_spec n 10); [|lia]. cbn [String.length]. split; [lia|].
    cbn [fixed]. rewrite N.mod_small by assumption. reflexivity.
  - destruct (N.ltb_spec n 10) as [L|L].
    + cbn [String.length]. split; [lia|].
      cbn [fixed]. rewrite (N.mod_small n 10) by assumption.
      rewrite (N.div_small n 10) by assumption.
      change (0 / 10)%N with 0%N. change (digit (0 mod 10)) with "0"%char.
      replace (S (S k) - 1)%nat with (S k) by lia.
      rewrite fixed_zero. f_equal.
      clear. induction k as [|k IH]; [reflexivity|]. cbn [zeros append]. now rewrite <- IH.
    + destruct f as [|f]; [cbn in H2; lia|].
      destruct (IH (S f) (n / 10)%N (div10_lt _ _ H1) (div10_lt _ _ H2) ltac:(lia))
        as [I1 I2].
      rewrite length_app_s. cbn [String.length]. split; [lia|].
      replace (S (S k) - (String.length (str_fuel (S f) (n / 10)) + 1))%nat
        with (S k - String.length (str_fuel (S f) (n / 10)))%nat by lia.
      rewrite <- app_assoc_s, I2. reflexivity.
Qed.

Lemma str_fuel_long : forall k f n, (10 ^ N.of_nat k <= n)%N -> (n < 10 ^ N.of_nat f)%N ->
  (k < String.length (str_fuel f n))%nat.
Proof.
  induction k as [|k IH]; intros f n H1 H2; destruct f as [|f].
  - cbn in *; lia.
  - cbn [str_fuel]. destruct (n <? 10)%N; cbn [String.length]; [lia|].
    rewrite length_app_s; cbn; lia.
  - rewrite pow10_S in H1. cbn in H2. assert (10 ^ N.of_nat k <> 0)%N
      by (apply N.pow_nonzero; lia). lia.
  - cbn [str_fuel]. rewrite pow10_S in H1.
    assert (10 ^ N.of_nat k <> 0)%N by (apply N.pow_nonzero; lia).
    destruct (N.ltb_spec n 10) as [L|L]; [lia|].
    rewrite length_app_s. cbn [String.length].
    assert (k < String.length (str_fuel f (n / 10)))%nat; [|lia].
    apply IH; [|now apply div10_lt]. apply N.div_le_lower_bound; lia.
Qed.

Lemma pad7_fixed : forall n, (n < 10000000)%N -> pad7 (str_of_N n) = fixed 7 n.
Proof.
  intros n H. unfold pad7, str_of_N.
  apply (str_fuel_fixed 6 (S (N.size_nat n)) n); [exact H|apply size_nat_lt|lia].
Qed.

Lemma pad7_long : forall n, (10000000 <= n)%N -> (7 < String.length (pad7 (str_of_N n)))%nat.
Proof.
  intros n H. unfold pad7. rewrite length_app_s.
  assert (7 < String.length (str_of_N n))%nat; [|lia].
  apply str_fuel_long; [exact H|apply size_nat_lt].
Qed.

Lemma pad7_width : forall s, String.length s = 7 -> pad7 s = s.
Proof. intros s H. unfold pad7. now rewrite H. Qed.

(** * Comparing fixed-width numbers *)
Lemma str_leb_same : forall a s t, str_leb (a ++ s) (a ++ t) = str_leb s t.
Proof.
  induction a as [|x a IH]; intros s t; cbn [append str_leb]; [reflexivity|].
  rewrite Nat.ltb_irrefl. apply IH.
Qed.

Lemma fixed_leb : forall k a b s t,
  (a < 10 ^ N.of_nat k)%N -> (b < 10 ^ N.of_nat k)%N ->
  str_leb (fixed k a ++ s) (fixed k b ++ t) =
  if (a <? b)%N then true else if (b <? a)%N then false else str_leb s t.
Proof.
  induction k as [|k IH]; intros a b s t Ha Hb.
  - cbn in Ha, Hb. assert (a = 0%N) by lia. assert (b = 0%N) by lia. subst. reflexivity.
  - cbn [fixed]. rewrite !app_assoc_s. cbn [append].
    rewrite IH by now apply div10_lt.
    pose proof (N.div_mod a 10 ltac:(lia)) as Ea. pose proof (N.div_mod b 10 ltac:(lia)) as Eb.
    pose proof (mod10_lt a) as La. pose proof (mod10_lt b) as Lb.
    destruct (digit_ok _ La) as (_ & _ & Da). destruct (digit_ok _ Lb) as (_ & _ & Db).
    set (qa := (a / 10)%N) in *. set (qb := (b / 10)%N) in *.
    set (ra := (a mod 10)%N) in *. set (rb := (b mod 10)%N) in *.
    clearbody qa qb ra rb.
    destruct (N.ltb_spec qa qb), (N.ltb_spec qb qa);
      destruct (N.ltb_spec a b), (N.ltb_spec b a); try (exfalso; lia); try reflexivity.
    + cbn [str_leb]. rewrite Da, Db.
      destruct (Nat.ltb_spec (48 + N.to_nat ra) (48 + N.to_nat rb));
        [reflexivity|lia].
    + cbn [str_leb]. rewrite Da, Db.
      destruct (Nat.ltb_spec (48 + N.to_nat ra) (48 + N.to_nat rb)); [lia|].
      destruct (Nat.ltb_spec (48 + N.to_nat rb) (48 + N.to_nat ra));
        [reflexivity|lia].
    + cbn [str_leb]. rewrite Da, Db.
      replace ra with rb by lia. now rewrite Nat.ltb_irrefl.
Qed.

Lemma fixed_inj : forall k a b, (a < 10 ^ N.of_nat k)%N -> (b < 10 ^ N.of_nat k)%N ->
  fixed k a = fixed k b -> a = b.
Proof.
  intros k a b Ha Hb E.
  pose proof (fixed_leb k a b "" "" Ha Hb) as H1.
  pose proof (fixed_leb k b a "" "" Hb Ha) as H2.
  rewrite E, str_leb_refl in H1. rewrite E, str_leb_refl in H2.
  destruct (N.ltb_spec a b), (N.ltb_spec b a); try lia; discriminate.
Qed.

Lemma fixed_app_inj : forall k a b s t, fixed k a ++ s = fixed k b ++ t ->
  fixed k a = fixed k b /\ s = t.
Proof.
  intros k a b s t. pose proof (fixed_length k a) as La. pose proof (fixed_length k b) as Lb.
  revert La Lb. generalize (fixed k a) as x. generalize (fixed k b) as y. revert k.
  clear a b. intros k y x. revert k y.
  induction x as [|c x IH]; intros k [|d y] La Lb E; cbn in *; subst; try discriminate; auto.
  inversion E; subst. inversion Lb. destruct (IH _ y eq_refl) as [E1 E2]; auto.
  split; congruence.
Qed.

(** * Matching *)
Definition digits (k : nat) : list cls := repeat D k.

Lemma fullmatch_app : forall p q s t, List.length p = String.length s ->
  fullmatch (p ++ q) (s ++ t) = fullmatch p s && fullmatch q t.
Proof.
  induction p as [|c p IH]; intros q [|x s] t H; cbn in *; try discriminate; [reflexivity|].
  rewrite IH by lia. now rewrite andb_assoc.
Qed.

Lemma fullmatch_length : forall p s, fullmatch p s = true ->
  List.length p = String.length s.
Proof.
  induction p as [|c p IH]; intros [|x s] H; cbn in *; try discriminate; [reflexivity|].
  apply andb_true_iff in H. f_equal. now apply IH.
Qed.

Lemma fullmatch_fixed : forall k n, fullmatch (digits k) (fixed k n) = true.
Proof.
  induction k as [|k IH]; intro n; [reflexivity|]. cbn [fixed].
  replace (digits (S k)) with (digits k ++ [D])%list.
  2: { unfold digits. clear. induction k as [|k IH]; cbn; [reflexivity|]. now rewrite IH. }
  rewrite fullmatch_app.
  2: { unfold digits. now rewrite repeat_length, fixed_length. }
  rewrite IH. cbn. unfold cls_match.
  destruct (digit_ok (n mod 10) (mod10_lt n)) as (H & _ & _). now rewrite H.
Qed.

Lemma strftime_match : forall d, fullmatch rundate_re (strftime d) = true.
Proof.
  intro d. unfold strftime.
  change rundate_re with (digits 4 ++ [C "-"%char] ++ digits 2 ++ [C "-"%char] ++ digits 2 ++
    [C "."%char] ++ digits 2 ++ digits 2 ++ digits 2 ++ [C "."%char] ++ digits 6)%list.
  repeat (rewrite fullmatch_app by (rewrite ?repeat_length, ?fixed_length; reflexivity);
          rewrite ?fullmatch_fixed, ?andb_true_l;
          try change (fullmatch [C "-"%char] "-") with true;
          try change (fullmatch [C "."%char] ".") with true; rewrite ?andb_true_l).
  reflexivity.
Qed.

Lemma strftime_length : forall d, String.length (strftime d) = 24.
Proof. intro d. symmetry. apply (fullmatch_length rundate_re), strftime_match. Qed.

Lemma substring_all : forall s, substring 0 (String.length s) s = s.
Proof. induction s as [|x s IH]; cbn; [reflexivity|now rewrite IH]. Qed.

Lemma substring_first : forall s t, substring 0 (String.length s) (s ++ t) = s.
Proof. induction s as [|x s IH]; intro t; cbn; [now destruct t|now rewrite IH]. Qed.

Lemma substring_skip : forall s t n, substring (String.length s) n (s ++ t) = substring 0 n t.
Proof. induction s as [|x s IH]; intros t n; cbn; [reflexivity|apply IH]. Qed.

Lemma parse_id_ok : forall d t, fullmatch rundate_re d = true ->
  fullmatch (digits 7) t = true -> parse_id (d ++ "__" ++ t) = Some (d, t).
Proof.
  intros d t Hd Ht. pose proof (fullmatch_length _ _ Hd) as Ld.
  pose proof (fullmatch_length _ _ Ht) as Lt. cbn in Ld, Lt.
  unfold parse_id.
  assert (M : fullmatch run_re (d ++ "__" ++ t) = true).
  { unfold run_re. rewrite fullmatch_app by exact Ld. rewrite Hd, andb_true_l.
    change [C "_"%char; C "_"%char; D; D; D; D; D; D; D]
      with ([C "_"%char; C "_"%char] ++ digits 7)%list.
    rewrite fullmatch_app by reflexivity. now rewrite Ht. }
  rewrite M. f_equal. f_equal.
  - rewrite Ld. apply substring_first.
  - replace (d ++ "__" ++ t) with ((d ++ "__") ++ t) by apply app_assoc_s.
    replace 26 with (String.length (d ++ "__")) by (rewrite length_app_s, <- Ld; reflexivity).
    rewrite substring_skip, Lt. apply substring_all.
Qed.

(** A recognised name is exactly the id that the extractor rebuilds from it. *)
Lemma split_string : forall n s, (n <= String.length s)%nat ->
  exists a b, s = a ++ b /\ String.length a = n.
Proof.
  induction n as [|n IH]; intros s H; [exists "", s; auto|].
  destruct s as [|x s]; cbn in H; [lia|].
  destruct (IH s ltac:(lia)) as (a & b & -> & E). exists (String x a), b. cbn. auto.
Qed.

Lemma parse_id_rebuild : forall name d t, parse_id name = Some (d, t) ->
  id_of d t = name /\ fullmatch rundate_re d = true /\ fullmatch (digits 7) t = true.
Proof.
  intros name d t H. unfold parse_id in H.
  destruct (fullmatch run_re name) eqn:M; [|discriminate]. inversion H; subst; clear H.
  pose proof (fullmatch_length _ _ M) as L. cbn in L.
  destruct (split_string 24 name ltac:(lia)) as (a & b & -> & La).
  rewrite length_app_s in L.
  unfold run_re in M. rewrite fullmatch_app in M by (rewrite La; reflexivity).
  apply andb_true_iff in M. destruct M as [M1 M2].
  destruct (split_string 2 b ltac:(lia)) as (u & t & -> & Lu). rewrite length_app_s in L.
  change [C "_"%char; C "_"%char; D; D; D; D; D; D; D]
    with ([C "_"%char; C "_"%char] ++ digits 7)%list in M2.
  rewrite fullmatch_app in M2 by (rewrite Lu; reflexivity).
  apply andb_true_iff in M2. destruct M2 as [M2 M3].
  assert (u = "__").
  { destruct u as [|x [|y [|z u]]]; cbn in Lu; try discriminate.
    cbn in M2. rewrite andb_true_r in M2. apply andb_true_iff in M2. destruct M2 as [E1 E2].
    apply Ascii.eqb_eq in E1, E2. now subst. }
  subst u.
  assert (E1 : substring 0 24 (a ++ "__" ++ t) = a) by (rewrite <- La; apply substring_first).
  assert (E2 : substring 26 7 (a ++ "__" ++ t) = t).
  { rewrite <- app_assoc_s.
    replace 26 with (String.length (a ++ "__")) by (rewrite length_app_s, La; reflexivity).
    rewrite substring_skip. cbn in L. replace 7 with (String.length t) by lia.
    apply substring_all. }
  rewrite E1, E2. split; [|auto]. unfold id_of. rewrite pad7_width; [reflexivity|].
  cbn in L. lia.
Qed.

Lemma id_fixed : forall d n, (n < 10000000)%N ->
  id_of (strftime d) (str_of_N n) = strftime d ++ "__" ++ fixed 7 n.
Proof. intros d n H. unfold id_of. now rewrite pad7_fixed. Qed.

Lemma id_parses : forall d n, (n < 10000000)%N ->
  parse_id (id_of (strftime d) (str_of_N n)) = Some (strftime d, fixed 7 n).
Proof.
  intros d n H. rewrite id_fixed by assumption.
  apply parse_id_ok; [apply strftime_match|apply fullmatch_fixed].
Qed.

Lemma fixed_value : forall k n, (n < 10 ^ N.of_nat k)%N -> (0 < k)%nat ->
  int_of_str (fixed k n) = Some n.
Proof.
  assert (V : forall k n, (n < 10 ^ N.of_nat k)%N -> digits_value 0 (fixed k n) = Some n).
  { induction k as [|k IH]; intros n H; cbn [fixed].
    - cbn in H. cbn. f_equal. lia.
    - rewrite digits_value_app, IH by now apply div10_lt. cbn [digits_value].
      destruct (digit_ok (n mod 10) (mod10_lt n)) as (H1 & H2 & _). rewrite H1, H2.
      f_equal. rewrite (N.div_mod n 10) at 3 by lia. reflexivity. }
  intros k n H Hk. unfold int_of_str. pose proof (fixed_length k n) as L.
  specialize (V k n H). destruct (fixed k n); [cbn in L; lia|exact V].
Qed.

Lemma id_too_long : forall d n, (10000000 <= n)%N ->
  parse_id (id_of (strftime d) (str_of_N n)) = None.
Proof.
  intros d n H. unfold parse_id.
  destruct (fullmatch run_re (id_of (strftime d) (str_of_N n))) eqn:M; [|reflexivity].
  apply fullmatch_length in M. unfold id_of in M.
  rewrite !length_app_s, strftime_length in M. pose proof (pad7_long n H) as L.
  change (List.length run_re) with 33 in M. change (String.length "__") with 2 in M. lia.
Qed.

(** * Order and injectivity *)
Lemma small : forall d, clock_date d ->
  (d_year d < 10 ^ N.of_nat 4 /\ d_month d < 10 ^ N.of_nat 2 /\ d_day d < 10 ^ N.of_nat 2 /\
   d_hour d < 10 ^ N.of_nat 2 /\ d_minute d < 10 ^ N.of_nat 2 /\
   d_second d < 10 ^ N.of_nat 2 /\ d_micro d < 10 ^ N.of_nat 6)%N.
Proof.
  intros d [H1 H2 H3 H4 H5 H6 H7].
  change (10 ^ N.of_nat 4)%N with 10000%N. change (10 ^ N.of_nat 2)%N with 100%N.
  change (10 ^ N.of_nat 6)%N with 1000000%N. lia.
Qed.

Lemma before_iff : forall x y a b, before (x :: a) (y :: b) <->
  (x < y)%N \/ (x = y /\ before a b).
Proof.
  intros x y a b; split.
  - intro H; inversion H; subst; auto.
  - intros [H|[-> H]]; [now left|now right].
Qed.

Lemma before_nil : ~ before [] [].
Proof. intro H; inversion H. Qed.

Lemma id_leb : forall d d' n n', clock_date d -> clock_date d' ->
  (n < 10000000)%N -> (n' < 10000000)%N ->
  str_leb (strftime d ++ "__" ++ fixed 7 n) (strftime d' ++ "__" ++ fixed 7 n') = true <->
  earlier d n d' n' \/ fields d = fields d' /\ n = n'.
Proof.
  intros d d' n n' Hd Hd' Hn Hn'.
  destruct (small d Hd) as (A1 & A2 & A3 & A4 & A5 & A6 & A7).
  destruct (small d' Hd') as (B1 & B2 & B3 & B4 & B5 & B6 & B7).
  unfold strftime. rewrite !app_assoc_s.
  rewrite fixed_leb by assumption. rewrite str_leb_same.
  rewrite fixed_leb by assumption. rewrite str_leb_same.
  rewrite fixed_leb by assumption. rewrite str_leb_same.
  rewrite fixed_leb by assumption.
  rewrite fixed_leb by assumption.
  rewrite fixed_leb by assumption. rewrite str_leb_same.
  rewrite fixed_leb by assumption. rewrite str_leb_same.
  replace (fixed 7 n) with (fixed 7 n ++ "") by apply app_nil_r_s.
  replace (fixed 7 n') with (fixed 7 n' ++ "") by apply app_nil_r_s.
  rewrite fixed_leb by assumption.
  unfold earlier, fields. cbn [app]. rewrite !before_iff.
  set (Y := d_year d) in *; set (Y' := d_year d') in *.
  set (M := d_month d) in *; set (M' := d_month d') in *.
  set (DD := d_day d) in *; set (DD' := d_day d') in *.
  set (H := d_hour d) in *; set (H' := d_hour d') in *.
  set (I := d_minute d) in *; set (I' := d_minute d') in *.
  set (S := d_second d) in *; set (S' := d_second d') in *.
  set (U := d_micro d) in *; set (U' := d_micro d') in *.
  clearbody Y Y' M M' DD DD' H H' I I' S S' U U'.
  assert (Eq : [Y; M; DD; H; I; S; U] = [Y'; M'; DD'; H'; I'; S'; U'] <->
    Y = Y' /\ M = M' /\ DD = DD' /\ H = H' /\ I = I' /\ S = S' /\ U = U').
  { split; [intro E; inversion E; subst; repeat split|].
    intros (-> & -> & -> & -> & -> & -> & ->); reflexivity. }
  rewrite Eq. clear Eq Hd Hd' A1 A2 A3 A4 A5 A6 A7 B1 B2 B3 B4 B5 B6 B7.
  pose proof before_nil as BN.
  destruct (N.ltb_spec Y Y'); [split; auto; intros; left; auto|].
  destruct (N.ltb_spec Y' Y); [split; [discriminate|intro; exfalso; lia]|].
  destruct (N.ltb_spec M M'); [split; auto; intros; left; right; split; [lia|auto]|].
  destruct (N.ltb_spec M' M); [split; [discriminate|intro; exfalso; lia]|].
  destruct (N.ltb_spec DD DD').
  { split; auto; intros; left; right; split; [lia|]; right; split; [lia|auto]. }
  destruct (N.ltb_spec DD' DD); [split; [discriminate|intro; exfalso; lia]|].
  destruct (N.ltb_spec H H').
  { split; auto; intros; left. do 3 (right; split; [lia|]). auto. }
  destruct (N.ltb_spec H' H); [split; [discriminate|intro; exfalso; lia]|].
  destruct (N.ltb_spec I I').
  { split; auto; intros; left. do 4 (right; split; [lia|]). auto. }
  destruct (N.ltb_spec I' I); [split; [discriminate|intro; exfalso; lia]|].
  destruct (N.ltb_spec S S').
  { split; auto; intros; left. do 5 (right; split; [lia|]). auto. }
  destruct (N.ltb_spec S' S); [split; [discriminate|intro; exfalso; lia]|].
  destruct (N.ltb_spec U U').
  { split; auto; intros; left. do 6 (right; split; [lia|]). auto. }
  destruct (N.ltb_spec U' U); [split; [discriminate|intro; exfalso; lia]|].
  destruct (N.ltb_spec n n').
  { split; auto; intros; left. do 7 (right; split; [lia|]). auto. }
  destruct (N.ltb_spec n' n).
  { split; [discriminate|]. intros [K|K]; exfalso; [|lia].
    do 7 (destruct K as [K|[_ K]]; [lia|]). destruct K as [K|[_ K]]; [lia|contradiction]. }
  split; [|reflexivity]. intros _. right. lia.
Qed.

Lemma id_inj : forall d d' n n', clock_date d -> clock_date d' ->
  (n < 10000000)%N -> (n' < 10000000)%N ->
  id_of (strftime d) (str_of_N n) = id_of (strftime d') (str_of_N n') ->
  fields d = fields d' /\ n = n'.
Proof.
  intros d d' n n' Hd Hd' Hn Hn' E. rewrite !id_fixed in E by assumption.
  assert (L1 : str_leb (strftime d ++ "__" ++ fixed 7 n) (strftime d' ++ "__" ++ fixed 7 n')
    = true) by (rewrite E; apply str_leb_refl).
  assert (L2 : str_leb (strftime d' ++ "__" ++ fixed 7 n') (strftime d ++ "__" ++ fixed 7 n)
    = true) by (rewrite E; apply str_leb_refl).
  apply id_leb in L1; [|assumption..]. apply id_leb in L2; [|assumption..].
  destruct L1 as [L1|L1]; [|exact L1]. destruct L2 as [L2|[L2 L3]]; [|subst; auto].
  exfalso. unfold earlier in *. clear - L1 L2. revert L1 L2.
  generalize (fields d ++ [n])%list, (fields d' ++ [n'])%list.
  intros a b H. induction H; intro H2; inversion H2; subst; try lia; auto.
Qed.
