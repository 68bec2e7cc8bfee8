(** Proofs for C149. *)
Require Import String Ascii List Arith Lia Bool.
From Verif Require Import ConcModel ConcProofs MconcModel MconcSpec.
Import ListNotations.
Open Scope string_scope.

Lemma get_none : forall b i, String.get i b = None <-> (String.length b <= i)%nat.
Proof.
  induction b as [|x b IH]; intros [|i]; cbn.
  - split; [lia|reflexivity].
  - split; [lia|reflexivity].
  - split; [discriminate|lia].
  - rewrite IH. lia.
Qed.

Lemma length_app : forall a b, String.length (a ++ b) = (String.length a + String.length b)%nat.
Proof. induction a as [|x a IH]; intro b; cbn; [reflexivity|]. now rewrite IH. Qed.

Lemma get_app : forall a b i, String.get i (a ++ b) =
  if (i <? String.length a)%nat then String.get i a else String.get (i - String.length a) b.
Proof.
  induction a as [|x a IH]; intros b i; cbn [append String.length].
  - now rewrite Nat.sub_0_r.
  - destruct i as [|i]; [reflexivity|]. cbn [String.get]. rewrite IH. reflexivity.
Qed.

Lemma write_at_length : forall n c b, String.length (write_at n c b) = Nat.max (String.length b) (S n).
Proof.
  induction n as [|n IH]; intros c b.
  - destruct b; cbn; lia.
  - destruct b as [|x b]; cbn [write_at String.length]; rewrite IH; cbn; lia.
Qed.

Lemma get_write : forall n c b i, String.get i (write_at n c b) =
  if (i =? n)%nat then Some c else
  match String.get i b with Some x => Some x | None => if (i <? n)%nat then Some "000"%char else None end.
Proof.
  induction n as [|n IH]; intros c b i.
  - destruct b as [|x b]; destruct i as [|i]; cbn; try reflexivity; try (destruct i; reflexivity); destruct (get i b); reflexivity.
  - destruct b as [|x b]; destruct i as [|i]; cbn [write_at String.get]; try reflexivity.
    + rewrite IH. cbn [Nat.eqb]. destruct (Nat.eqb i n); [reflexivity|]. destruct i; reflexivity.
    + rewrite IH. reflexivity.
Qed.

Lemma get_ext : forall a b, (String.length b <= String.length a)%nat ->
  (forall i, (i < String.length a)%nat -> String.get i b = String.get i a) -> b = a.
Proof.
  induction a as [|x a IH]; intros [|y b] L H; cbn in *; try reflexivity; try lia.
  - specialize (H 0 ltac:(lia)). cbn in H. discriminate.
  - pose proof (H 0 ltac:(lia)) as H0. cbn in H0. injection H0 as ->. f_equal. apply IH; [lia|].
    intros i Hi. apply (H (S i)). lia.
Qed.

Section Together.
  Variables V P : Type.
  Variable eqP : P -> P -> bool.
  Variable pickle_m : V * P -> string.
  Variable unpickle_m : string -> option (V * P).
  Variable v : V.
  Variable params : P.
  Variable fuel0 : nat.
  Let full := pickle_m (v, params).
  Hypothesis enough : (String.length full <= fuel0)%nat.

  Notation Prog := (mprog V).
  Notation dec := (decoded V P eqP unpickle_m params).
  Notation fin := (fun b => Ended V (dec b)).
  Notation start := (ask_metric V P eqP pickle_m unpickle_m fuel0 (Some v) params).

  Definition opening : Prog := MCall V OpenW (fun _ => dump V 0 full (Ended V (Value V v))).

  (** A process that still writes the bytes after [pre]. *)
  Definition writing (p : Prog) (m : nat) : Prop :=
    exists pre c rest, full = pre ++ String c rest /\ String.length pre = m /\
      p = dump V m (String c rest) (Ended V (Value V v)).

  Inductive state (f : option string) (p : Prog) : Prop :=
  | at_start : p = start -> state f p
  | at_open : p = opening -> state f p
  | at_write : forall m, f <> None -> writing p m -> state f p
  | at_read : forall m fuel acc, f <> None -> p = read_all V fuel m acc fin -> String.length acc = m -> worn full acc ->
      (String.length full <= fuel + m)%nat -> state f p
  | at_end : forall a, f <> None -> p = Ended V a -> (a = Value V v \/ exists b, worn full b /\ a = dec b) -> state f p.

  Definition covered (ps : list Prog) (i : nat) : Prop := exists p m, In p ps /\ writing p m /\ (m <= i)%nat.

  Definition J (st : option string * list Prog) : Prop :=
    (forall p, In p (snd st) -> state (fst st) p) /\
    match fst st with
    | None => True
    | Some b => worn full b /\ forall i, (i < String.length full)%nat -> String.get i b = String.get i full \/ covered (snd st) i
    end.

  Lemma state_file : forall f f' p, (f <> None -> f' <> None) -> state f p -> state f' p.
  Proof. intros f f' p H [A|A|m A B|m fu acc A B C D E|a A B C]; [now apply at_start|now apply at_open|eapply at_write; eauto|eapply at_read; eauto|eapply at_end; eauto]. Qed.

  Lemma in_replace : forall {A} (l : list A) i x y, In y (firstn i l ++ x :: skipn (S i) l) -> y = x \/ In y l.
  Proof.
    intros A l i x y H. apply in_app_or in H. destruct H as [H|[H|H]]; [right|now left|right].
    - rewrite <- (firstn_skipn i l). apply in_or_app. now left.
    - rewrite <- (firstn_skipn (S i) l). apply in_or_app. now right.
  Qed.

  (** The others are still there. *)
  Lemma covered_replace : forall ps i x old j, nth_error ps i = Some old -> covered ps j ->
    (forall m, writing old m -> (m <= j)%nat -> exists m', writing x m' /\ (m' <= j)%nat) ->
    covered (firstn i ps ++ x :: skipn (S i) ps) j.
  Proof.
    intros ps i x old j E (p & m & Hp & W & L) K.
    assert (Hi : (i < List.length ps)%nat) by (apply nth_error_Some; congruence).
    destruct (In_nth_error _ _ Hp) as (k & Hk). destruct (Nat.eq_dec i k) as [<-|N].
    - rewrite E in Hk. injection Hk as ->. destruct (K m W L) as (m' & W' & L'). exists x, m'. split; [|auto].
      apply in_or_app. right. now left.
    - exists p, m. split; [|auto]. apply (nth_error_In _ k). rewrite nth_replace by exact Hi.
      destruct (Nat.eqb_spec i k); [congruence|exact Hk].
  Qed.

  Lemma in_new : forall (ps : list Prog) i x, In x (firstn i ps ++ x :: skipn (S i) ps).
  Proof. intros. apply in_or_app. right. now left. Qed.

  Lemma not_writing_call : forall c k m, (forall n x, c <> WriteB n x) -> ~ writing (MCall V c k) m.
  Proof. intros c k m H (pre & x & rest & _ & _ & E). cbn [dump] in E. injection E as -> _. now apply (H m x). Qed.

  Lemma worn_nil : worn full "".
  Proof. split; [cbn; lia|]. intros [|i] c H; discriminate. Qed.

  Lemma dump_next : forall pre rest, full = pre ++ rest ->
    forall f, f <> None -> state f (dump V (String.length pre) rest (Ended V (Value V v))).
  Proof.
    intros pre [|c rest] E f Hf.
    - cbn [dump]. eapply at_end; [exact Hf|reflexivity|now left].
    - eapply at_write; [exact Hf|]. exists pre, c, rest. auto.
  Qed.

  Lemma worn_read : forall b acc c, worn full b -> worn full acc -> String.get (String.length acc) b = Some c ->
    worn full (acc ++ String c "").
  Proof.
    intros b acc c [Lb Hb] [La Hacc] G. split.
    - rewrite length_app. cbn. assert (String.length acc < String.length b)%nat; [|lia].
      apply Nat.nle_gt. intro X. apply get_none in X. congruence.
    - intros i x H. rewrite get_app in H. destruct (Nat.ltb_spec i (String.length acc)) as [X|X]; [now apply Hacc|].
      destruct (i - String.length acc) as [|k] eqn:K; [|destruct k; discriminate]. cbn in H. injection H as <-.
      replace i with (String.length acc) by lia. now apply Hb.
  Qed.

  Lemma J_turn : forall st i, J st -> J (mturn V st i).
  Proof.
    intros [f ps] i [S W]. unfold mturn. cbn [fst snd] in *.
    destruct (nth_error ps i) as [[a|c k]|] eqn:E; [split; auto| |split; auto].
    assert (Hin : In (MCall V c k) ps) by (eapply nth_error_In; eauto).
    destruct (S _ Hin) as [A|A|m Hf A|m fu acc Hf A La Wa Fu|a Hf A _]; [| | | |discriminate].
    - (* start *)
      unfold ask_metric in A. injection A as -> ->. destruct f as [b|]; cbn [do_mcall].
      + destruct W as [Wb C]. split; cbn [fst snd].
        * intros p Hp. apply in_replace in Hp. destruct Hp as [->|Hp]; [|now apply S].
          eapply at_read; [discriminate|reflexivity|reflexivity|apply worn_nil|lia].
        * split; [exact Wb|]. intros j Hj. destruct (C j Hj) as [X|X]; [now left|right].
          eapply covered_replace; [exact E|exact X|]. intros m X' _. exfalso. eapply not_writing_call; [|exact X']. discriminate.
      + split; cbn [fst snd]; [|exact I]. intros p Hp. apply in_replace in Hp. destruct Hp as [->|Hp]; [|now apply S].
        apply at_open. reflexivity.
    - (* open for writing *)
      unfold opening in A. injection A as -> ->. cbn [do_mcall]. split; cbn [fst snd].
      + intros p Hp. apply in_replace in Hp. destruct Hp as [->|Hp].
        * apply (dump_next "" full eq_refl). discriminate.
        * apply (state_file f); [discriminate|now apply S].
      + split; [apply worn_nil|]. intros j Hj. right. exists (dump V 0 full (Ended V (Value V v))), 0.
        split; [apply in_new|]. split; [|lia]. destruct full as [|x rest] eqn:Fu; [cbn in Hj; lia|].
        exists "", x, rest. auto.
    - (* write *)
      destruct f as [b|]; [|congruence]. destruct W as [[Lb Wb] C].
      destruct A as (pre & x & rest & Ef & Lp & A). cbn [dump] in A. injection A as -> ->. cbn [do_mcall].
      assert (Fm : String.get m full = Some x).
      { rewrite Ef, get_app, Lp, Nat.ltb_irrefl, Nat.sub_diag. reflexivity. }
      assert (Lm : (m < String.length full)%nat) by (apply Nat.nle_gt; intro X; apply get_none in X; congruence).
      split; cbn [fst snd].
      + intros p Hp. apply in_replace in Hp. destruct Hp as [->|Hp].
        * replace (Datatypes.S m) with (String.length (pre ++ String x "")) by (rewrite length_app; cbn; lia).
          apply dump_next; [|discriminate]. rewrite Ef. clear. induction pre as [|y pre IH]; cbn; [reflexivity|]. now rewrite <- IH.
        * apply (state_file (Some b)); [discriminate|now apply S].
      + split.
        * split; [rewrite write_at_length; lia|]. intros j y H. rewrite get_write in H.
          destruct (Nat.eqb_spec j m) as [->|N]; [injection H as <-; now left|].
          destruct (String.get j b) as [z|] eqn:G; [injection H as <-; now apply Wb|].
          destruct (Nat.ltb j m); [injection H as <-; now right|discriminate].
        * intros j Hj. rewrite get_write. destruct (Nat.eqb_spec j m) as [->|N]; [left; now rewrite Fm|].
          destruct (C j Hj) as [X|X].
          -- left. destruct (String.get j b) as [z|] eqn:G; [exact X|]. symmetry in X. apply get_none in X. lia.
          -- right. eapply covered_replace; [exact E|exact X|]. intros m' (pre' & x' & rest' & Ef' & Lp' & A') L'.
             cbn [dump] in A'. injection A' as <- <- _.
             exists (Datatypes.S m). split; [|lia]. destruct rest as [|y rest].
             ++ exfalso. rewrite Ef, length_app in Hj. cbn in Hj. lia.
             ++ exists (pre ++ String x ""), y, rest. split; [|split; [rewrite length_app; cbn; lia|reflexivity]].
                rewrite Ef. clear. induction pre as [|z pre IH]; cbn; [reflexivity|]. now rewrite <- IH.
    - (* read *)
      destruct f as [b|]; [|congruence]. destruct W as [Wb C].
      assert (Keep : forall x, forall j, (j < String.length full)%nat -> String.get j b = String.get j full \/
          covered (firstn i ps ++ x :: skipn (Datatypes.S i) ps) j).
      { intros x j Hj. destruct (C j Hj) as [X|X]; [now left|right]. eapply covered_replace; [exact E|exact X|].
        intros m' X' _. exfalso. rewrite A in X'. destruct fu; cbn [read_all] in X'; (eapply not_writing_call; [|exact X']); discriminate. }
      destruct fu as [|fu]; cbn [read_all] in A; injection A as -> ->; cbn [do_mcall]; destruct (String.get m b) as [c|] eqn:G.
      + exfalso. assert (String.length b <= String.length full)%nat by apply Wb.
        assert (m < String.length b)%nat; [|lia]. apply Nat.nle_gt. intro X. apply get_none in X. congruence.
      + split; cbn [fst snd]; [|split; [exact Wb|apply Keep]]. intros p Hp. apply in_replace in Hp. destruct Hp as [->|Hp]; [|now apply S].
        eapply at_end; [discriminate|reflexivity|]. right. now exists acc.
      + split; cbn [fst snd]; [|split; [exact Wb|apply Keep]]. intros p Hp. apply in_replace in Hp. destruct Hp as [->|Hp]; [|now apply S].
        eapply at_read; [discriminate|reflexivity|rewrite length_app; cbn; lia| |lia].
        subst m. exact (worn_read b acc c Wb Wa G).
      + split; cbn [fst snd]; [|split; [exact Wb|apply Keep]]. intros p Hp. apply in_replace in Hp. destruct Hp as [->|Hp]; [|now apply S].
        eapply at_end; [discriminate|reflexivity|]. right. now exists acc.
  Qed.

  Lemma J_start : forall f n, f = None \/ f = Some full -> J (f, repeat start n).
  Proof.
    intros f n H. split; cbn [fst snd].
    - intros p Hp. apply repeat_spec in Hp. now apply at_start.
    - destruct H as [->| ->]; [exact I|]. split; [|now left]. split; [lia|]. now left.
  Qed.

  Lemma J_run : forall schedule st, J st -> J (fold_left (mturn V) schedule st).
  Proof. induction schedule as [|i schedule IH]; intros st H; cbn [fold_left]; [exact H|]. apply IH. now apply J_turn. Qed.

  Lemma J_end : forall st, J st -> snd st <> [] -> (forall p, In p (snd st) -> exists a, p = Ended V a) -> fst st = Some full.
  Proof.
    intros [f ps] [S W] Hn E. cbn [fst snd] in *. destruct f as [b|].
    - destruct W as [[L _] C]. f_equal. apply get_ext; [exact L|]. intros i Hi. destruct (C i Hi) as [X|(p & m & Hp & (pre & c & rest & _ & _ & ->) & _)]; [exact X|].
      destruct (E _ Hp) as (a & X). discriminate.
    - exfalso. destruct ps as [|p ps]; [congruence|]. destruct (E p (or_introl eq_refl)) as (a & ->).
      destruct (S _ (or_introl eq_refl)) as [X|X|m X _|m fu acc X _ _ _ _|a' X _ _]; congruence || discriminate.
  Qed.

  Lemma J_answers : forall st a, J st -> In (Ended V a) (snd st) -> a = Value V v \/ exists b, worn full b /\ a = dec b.
  Proof.
    intros st a [S _] H. destruct (S _ H) as [X|X|m _ (pre & c & rest & _ & _ & X)|m fu acc _ X _ _ _|a' _ X Y]; try discriminate.
    - destruct fu; discriminate.
    - injection X as ->. exact Y.
  Qed.

  (** * A complete file *)
  Inductive state2 (p : Prog) : Prop :=
  | at_start2 : p = start -> state2 p
  | at_read2 : forall acc rest fuel, p = read_all V fuel (String.length acc) acc fin -> full = acc ++ rest ->
      (String.length rest <= fuel)%nat -> state2 p
  | at_end2 : p = Ended V (dec full) -> state2 p.

  Lemma turn2 : forall st i, fst st = Some full -> (forall p, In p (snd st) -> state2 p) ->
    fst (mturn V st i) = Some full /\ forall p, In p (snd (mturn V st i)) -> state2 p.
  Proof.
    intros [f ps] i F S. cbn [fst snd] in *. subst f. unfold mturn. cbn [fst snd].
    destruct (nth_error ps i) as [[a|c k]|] eqn:E; [auto| |auto].
    destruct (S _ (nth_error_In _ _ E)) as [A|acc rest fu A Ef Fu|A]; [| |discriminate].
    - unfold ask_metric in A. injection A as -> ->. cbn [do_mcall fst snd]. split; [reflexivity|].
      intros p Hp. apply in_replace in Hp. destruct Hp as [->|Hp]; [|auto].
      apply (at_read2 _ "" full fuel0); auto.
    - assert (G : String.get (String.length acc) full = String.get 0 rest).
      { rewrite Ef, get_app, Nat.ltb_irrefl, Nat.sub_diag. reflexivity. }
      destruct rest as [|x rest].
      + assert (Ea : acc = full).
        { rewrite Ef. clear. induction acc; cbn; congruence. }
        destruct fu as [|fu]; cbn [read_all] in A; injection A as -> ->; cbn [do_mcall]; rewrite G; cbn [fst snd String.get];
          (split; [reflexivity|]); intros p Hp; apply in_replace in Hp; (destruct Hp as [->|Hp]; [|auto]); apply at_end2; now rewrite Ea.
      + destruct fu as [|fu]; [cbn in Fu; lia|]. cbn [read_all] in A; injection A as -> ->; cbn [do_mcall]; rewrite G; cbn [fst snd String.get].
        split; [reflexivity|]. intros p Hp; apply in_replace in Hp; (destruct Hp as [->|Hp]; [|auto]).
        apply (at_read2 _ (acc ++ String x "") rest fu).
        * rewrite length_app. cbn [String.length]. now rewrite Nat.add_1_r.
        * rewrite Ef. clear. induction acc as [|z pre IH]; cbn; [reflexivity|]. now rewrite <- IH.
        * cbn in Fu. lia.
  Qed.

  Lemma run2 : forall schedule st, fst st = Some full -> (forall p, In p (snd st) -> state2 p) ->
    fst (fold_left (mturn V) schedule st) = Some full /\ forall p, In p (snd (fold_left (mturn V) schedule st)) -> state2 p.
  Proof.
    induction schedule as [|i schedule IH]; intros st F S; cbn [fold_left]; [auto|].
    destruct (turn2 st i F S) as [F' S']. now apply IH.
  Qed.
End Together.
