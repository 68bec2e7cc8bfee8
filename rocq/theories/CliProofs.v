(** Proofs for C151. *)
Require Import String Ascii List Arith Bool Lia.
From Verif Require Import Base CliModel CliSpec.
Import ListNotations.
Open Scope string_scope.

(** * Patterns: induction and equations *)

Section PatInd.
  Variable P : pat -> Prop.
  Hypothesis HO : forall n, P (POption n).
  Hypothesis HC : forall n, P (PCommand n).
  Hypothesis HA : forall n, P (PArgument n).
  Hypothesis HR : forall l, Forall P l -> P (PRequired l).
  Hypothesis HP : forall l, Forall P l -> P (POptional l).
  Hypothesis HE : forall l, Forall P l -> P (PEither l).

  Fixpoint pat_ind2 (p : pat) : P p :=
    let go := fix go (l : list pat) : Forall P l :=
      match l with [] => Forall_nil P | q :: l' => Forall_cons q (pat_ind2 q) (go l') end in
    match p with
    | POption n => HO n
    | PCommand n => HC n
    | PArgument n => HA n
    | PRequired l => HR l (go l)
    | POptional l => HP l (go l)
    | PEither l => HE l (go l)
    end.
End PatInd.

Fixpoint all_of (left : list atom) (collected : list (string * value)) (l : list pat) (lf : list atom)
    (c : list (string * value)) : outcome :=
  match l with
  | [] => (true, lf, c)
  | p :: l' => match matches p lf c with
               | (true, lf', c') => all_of left collected l' lf' c'
               | (false, _, _) => (false, left, collected)
               end
  end.

Fixpoint any_of (l : list pat) (lf : list atom) (c : list (string * value)) : outcome :=
  match l with
  | [] => (true, lf, c)
  | p :: l' => match matches p lf c with (_, lf', c') => any_of l' lf' c' end
  end.

Fixpoint each_of (left : list atom) (collected : list (string * value)) (l : list pat) (best : option outcome) : option outcome :=
  match l with
  | [] => best
  | p :: l' => each_of left collected l' (better best (matches p left collected))
  end.

Lemma matches_required l left c : matches (PRequired l) left c = all_of left c l left c.
Proof.
  cbn [matches]. match goal with |- ?F l left c = _ => assert (E : forall l0 lf c0, F l0 lf c0 = all_of left c l0 lf c0) end; [|apply E].
  induction l0 as [|p l0 IH]; intros lf c0; cbn [all_of]; [reflexivity|].
  destruct (matches p lf c0) as [[[] lf'] c']; [apply IH|reflexivity].
Qed.
Lemma matches_optional l left c : matches (POptional l) left c = any_of l left c.
Proof.
  cbn [matches]. match goal with |- ?F l left c = _ => assert (E : forall l0 lf c0, F l0 lf c0 = any_of l0 lf c0) end; [|apply E].
  induction l0 as [|p l0 IH]; intros lf c0; cbn [any_of]; [reflexivity|].
  destruct (matches p lf c0) as [[b lf'] c']. apply IH.
Qed.
Lemma matches_either l left c :
  matches (PEither l) left c = match each_of left c l None with Some o => o | None => (false, left, c) end.
Proof.
  cbn [matches]. match goal with |- match ?F l None with _ => _ end = _ => assert (E : forall l0 best, F l0 best = each_of left c l0 best) end; [|now rewrite E].
  induction l0 as [|p l0 IH]; intros best; cbn [each_of]; [reflexivity|]. apply IH.
Qed.

(** * What is collected *)

Fixpoint commands_in (p : pat) : list string :=
  match p with
  | PCommand n => [n]
  | POption _ | PArgument _ => []
  | PRequired l | POptional l | PEither l => flat_map commands_in l
  end.
Fixpoint others_in (p : pat) : list string :=
  match p with
  | PCommand _ => []
  | POption n | PArgument n => [n]
  | PRequired l | POptional l | PEither l => flat_map others_in l
  end.

Definition collects (cs os : list string) (c c' : list (string * value)) : Prop :=
  exists new, c' = (c ++ new)%list /\
    forall n v, In (n, v) new -> (In n cs /\ v = VBool true) \/ In n os.

Lemma collects_refl cs os c : collects cs os c c.
Proof. exists []. split; [now rewrite app_nil_r|]. intros n v []. Qed.

Lemma collects_trans cs os c c1 c2 : collects cs os c c1 -> collects cs os c1 c2 -> collects cs os c c2.
Proof.
  intros (n1 & -> & H1) (n2 & -> & H2). exists (n1 ++ n2)%list. split; [now rewrite app_assoc|].
  intros n v H. apply in_app_iff in H as [H|H]; eauto.
Qed.

Lemma collects_incl cs os cs' os' c c' : incl cs cs' -> incl os os' -> collects cs os c c' -> collects cs' os' c c'.
Proof.
  intros A B (new & -> & H). exists new. split; [reflexivity|]. intros n v I.
  destruct (H n v I) as [[X Y]|X]; [left; split; [now apply A|exact Y]|right; now apply B].
Qed.

Lemma either_choice left c l best o : each_of left c l best = Some o ->
  best = Some o \/ exists p, In p l /\ matches p left c = o /\ fst (fst o) = true.
Proof.
  revert best. induction l as [|p l IH]; intros best H; cbn [each_of] in H; [now left|].
  apply IH in H as [H|(q & A & B)]; [|right; exists q; split; [now right|exact B]].
  destruct (matches p left c) as [[b lf] c'] eqn:M. unfold better in H. destruct b; [|now left].
  destruct best as [[[bb lb] cb]|].
  - destruct (_ <? _)%nat; [|now left]. right. exists p. split; [now left|]. injection H as <-. now split.
  - right. exists p. split; [now left|]. injection H as <-. now split.
Qed.

Lemma matches_collects : forall p left c, collects (commands_in p) (others_in p) c (snd (matches p left c)).
Proof.
  induction p as [n|n|n|l IH|l IH|l IH] using pat_ind2; intros left c.
  - cbn [matches]. destruct (take_option n left) as [[v r]|]; cbn [snd]; [|apply collects_refl].
    exists [(n, v)]. split; [reflexivity|]. intros m w [E|[]]. injection E as <- <-. right. now left.
  - cbn [matches]. destruct (take_word left) as [[w r]|]; cbn [snd]; [|apply collects_refl].
    destruct (String.eqb w n); cbn [snd]; [|apply collects_refl].
    exists [(n, VBool true)]. split; [reflexivity|]. intros m v [E|[]]. injection E as <- <-. left. split; [now left|reflexivity].
  - cbn [matches]. destruct (take_word left) as [[w r]|]; cbn [snd]; [|apply collects_refl].
    exists [(n, VStr w)]. split; [reflexivity|]. intros m v [E|[]]. injection E as <- <-. right. now left.
  - rewrite matches_required. cbn [commands_in others_in].
    assert (G : forall lf c1, collects (flat_map commands_in l) (flat_map others_in l) c c1 ->
      collects (flat_map commands_in l) (flat_map others_in l) c (snd (all_of left c l lf c1))).
    { assert (K : forall l0, incl (flat_map commands_in l0) (flat_map commands_in l) ->
        incl (flat_map others_in l0) (flat_map others_in l) -> Forall (fun p => forall left c,
          collects (commands_in p) (others_in p) c (snd (matches p left c))) l0 ->
        forall lf c1, collects (flat_map commands_in l) (flat_map others_in l) c c1 ->
        collects (flat_map commands_in l) (flat_map others_in l) c (snd (all_of left c l0 lf c1))).
      { induction l0 as [|p l0 IHl]; intros I1 I2 F lf c1 H; cbn [all_of]; [exact H|].
        inversion F as [|? ? F1 F2]; subst. pose proof (F1 lf c1) as X.
        destruct (matches p lf c1) as [[b lf'] c']. cbn [snd] in X. destruct b; [|apply collects_refl].
        apply IHl; [intros z Hz; apply I1; cbn; apply in_or_app; now right
                   |intros z Hz; apply I2; cbn; apply in_or_app; now right|exact F2|].
        eapply collects_trans; [exact H|]. eapply collects_incl; [| |exact X].
        - intros z Hz. apply I1. cbn. apply in_or_app. now left.
        - intros z Hz. apply I2. cbn. apply in_or_app. now left. }
      apply K; [apply incl_refl|apply incl_refl|exact IH]. }
    apply G, collects_refl.
  - rewrite matches_optional. cbn [commands_in others_in].
    assert (K : forall l0, incl (flat_map commands_in l0) (flat_map commands_in l) ->
        incl (flat_map others_in l0) (flat_map others_in l) -> Forall (fun p => forall left c,
          collects (commands_in p) (others_in p) c (snd (matches p left c))) l0 ->
        forall lf c1, collects (flat_map commands_in l) (flat_map others_in l) c c1 ->
        collects (flat_map commands_in l) (flat_map others_in l) c (snd (any_of l0 lf c1))).
    { induction l0 as [|p l0 IHl]; intros I1 I2 F lf c1 H; cbn [any_of]; [exact H|].
      inversion F as [|? ? F1 F2]; subst. pose proof (F1 lf c1) as X.
      destruct (matches p lf c1) as [[b lf'] c']. cbn [snd] in X.
      apply IHl; [intros z Hz; apply I1; cbn; apply in_or_app; now right
                 |intros z Hz; apply I2; cbn; apply in_or_app; now right|exact F2|].
      eapply collects_trans; [exact H|]. eapply collects_incl; [| |exact X].
      - intros z Hz. apply I1. cbn. apply in_or_app. now left.
      - intros z Hz. apply I2. cbn. apply in_or_app. now left. }
    apply K; [apply incl_refl|apply incl_refl|exact IH|apply collects_refl].
  - rewrite matches_either. destruct (each_of left c l None) as [o|] eqn:E; [|apply collects_refl].
    apply either_choice in E as [E|(p & Hp & <- & _)]; [discriminate|].
    rewrite Forall_forall in IH. specialize (IH p Hp left c). cbn [commands_in others_in].
    eapply collects_incl; [| |exact IH]; intros z Hz; apply in_flat_map; eauto.
Qed.

(** * Looking things up in the dictionary *)

Lemma arg_app d e k : arg (d ++ e)%list k = if existsb (fun x => String.eqb (fst x) k) e then arg e k else arg d k.
Proof.
  induction d as [|[n v] d IH]; cbn [app arg].
  - destruct (existsb _ e) eqn:X; [reflexivity|]. induction e as [|[m w] e IHe]; [reflexivity|].
    cbn [existsb fst] in X. apply orb_false_iff in X as [X1 X2]. cbn [arg]. now rewrite X2, X1.
  - rewrite existsb_app, IH. destruct (existsb _ e) eqn:X.
    + now rewrite orb_true_r.
    + now rewrite orb_false_r.
Qed.

Lemma arg_found e k : existsb (fun x => String.eqb (fst x) k) e = true -> In (k, arg e k) e.
Proof.
  induction e as [|[n v] e IH]; [discriminate|]. cbn [existsb fst arg]. intro H.
  destruct (existsb (fun x => String.eqb (fst x) k) e) eqn:X.
  - right. now apply IH.
  - rewrite orb_false_r in H. rewrite H. apply String.eqb_eq in H. subst n. now left.
Qed.

Lemma existsb_names e k : existsb (fun x : string * value => String.eqb (fst x) k) e = true <-> In k (map fst e).
Proof.
  rewrite existsb_exists, in_map_iff. split; intros (x & A & B); exists x; split; auto; now apply String.eqb_eq.
Qed.

Lemma existsb_absent e k : ~ In k (map fst e) -> existsb (fun x : string * value => String.eqb (fst x) k) e = false.
Proof. intro H. destruct (existsb _ e) eqn:X; [|reflexivity]. apply existsb_names in X. contradiction. Qed.

Lemma arg_unique e k v : NoDup (map fst e) -> In (k, v) e -> arg e k = v.
Proof.
  induction e as [|[n w] e IH]; intros N H; [destruct H|]. cbn in N. inversion N as [|? ? A B]; subst. cbn [arg].
  destruct H as [H|H].
  - injection H as -> ->. rewrite existsb_absent by exact A. now rewrite String.eqb_refl.
  - assert (K : In k (map fst e)) by (change k with (fst (k, v)); now apply in_map).
    apply existsb_names in K. rewrite K. now apply IH.
Qed.

(** * Taking words and options *)

Lemma given_o n v l : given (AOption n v :: l) = (n, v) :: given l.
Proof. reflexivity. Qed.
Lemma given_w w l : given (AWord w :: l) = given l.
Proof. reflexivity. Qed.
Lemma words_o n v l : plain_words (AOption n v :: l) = plain_words l.
Proof. reflexivity. Qed.
Lemma words_w w l : plain_words (AWord w :: l) = w :: plain_words l.
Proof. reflexivity. Qed.

Lemma take_word_spec left : match take_word left with
  | Some (w, rest) => plain_words left = w :: plain_words rest /\ given rest = given left /\ List.length left = S (List.length rest)
  | None => plain_words left = []
  end.
Proof.
  induction left as [|[n v|w] left IH]; cbn [take_word]; [reflexivity| |].
  - destruct (take_word left) as [[w rest]|]; cbn [option_map fst snd]; rewrite ?given_o, ?words_o.
    + destruct IH as (A & B & C). rewrite B. cbn [List.length]. rewrite C. auto.
    + exact IH.
  - rewrite words_w, given_w. auto.
Qed.

Fixpoint drop_first (n : string) (os : list (string * value)) : option (value * list (string * value)) :=
  match os with
  | [] => None
  | (m, v) :: os' => if String.eqb m n then Some (v, os') else option_map (fun vr => (fst vr, (m, v) :: snd vr)) (drop_first n os')
  end.

Lemma take_option_spec n left : match take_option n left with
  | Some (v, rest) => drop_first n (given left) = Some (v, given rest) /\ plain_words rest = plain_words left
                      /\ List.length left = S (List.length rest)
  | None => drop_first n (given left) = None
  end.
Proof.
  induction left as [|[m v|w] left IH]; cbn [take_option]; [reflexivity| |].
  - rewrite given_o. cbn [drop_first]. destruct (String.eqb m n) eqn:E.
    + rewrite words_o. auto.
    + destruct (take_option n left) as [[w rest]|]; cbn [option_map fst snd].
      * destruct IH as (A & B & C). rewrite A, !words_o, given_o. cbn [option_map fst snd List.length]. rewrite C. auto.
      * now rewrite IH.
  - destruct (take_option n left) as [[v rest]|]; cbn [option_map fst snd].
    + destruct IH as (A & B & C). rewrite !given_w, !words_w, B. cbn [List.length]. rewrite C. auto.
    + exact IH.
Qed.

Lemma sizes left : List.length left = (List.length (plain_words left) + List.length (given left))%nat.
Proof.
  induction left as [|[n v|w] left IH]; [reflexivity| |].
  - rewrite given_o, words_o. cbn [List.length]. lia.
  - rewrite given_w, words_w. cbn [List.length]. lia.
Qed.

Lemma nothing_left left : plain_words left = [] -> given left = [] -> left = [].
Proof. intros A B. apply length_zero_iff_nil. rewrite sizes, A, B. reflexivity. Qed.

(** * The same on words and options apart *)

Definition state : Type := bool * list string * list (string * value) * list (string * value).

Definition view (o : outcome) : state :=
  match o with (b, lf, c) => (b, plain_words lf, given lf, c) end.

Lemma m_option n left c : view (matches (POption n) left c) =
  match drop_first n (given left) with
  | Some (v, os) => (true, plain_words left, os, (c ++ [(n, v)])%list)
  | None => (false, plain_words left, given left, c)
  end.
Proof.
  cbn [matches]. pose proof (take_option_spec n left) as H. destruct (take_option n left) as [[v rest]|].
  - destruct H as (A & B & _). rewrite A. cbn [view]. now rewrite B.
  - now rewrite H.
Qed.

(** * One command *)

Lemma first_command n rest left lf c : all_of left [] (PCommand n :: rest) left [] = (true, lf, c) ->
  exists r new, take_word left = Some (n, r) /\ c = ((n, VBool true) :: new).
Proof.
  cbn [all_of matches]. destruct (take_word left) as [[w r]|]; [|discriminate].
  destruct (String.eqb_spec w n) as [->|D]; [|discriminate]. cbn [app]. intro H.
  assert (X : collects (commands_in (PRequired rest)) (others_in (PRequired rest)) [(n, VBool true)] c \/ True) by now right.
  clear X. assert (K : forall l lf0 c0 x, all_of left [] l lf0 (x :: c0) = (true, lf, c) -> exists new, c = x :: new).
  { clear. induction l as [|p l IH]; intros lf0 c0 x H; cbn [all_of] in H; [injection H as _ <-; eauto|].
    pose proof (matches_collects p lf0 (x :: c0)) as (new & E & _).
    destruct (matches p lf0 (x :: c0)) as [[b l1] c1]. cbn [snd] in E. subst c1. destruct b; [|discriminate].
    cbn [app] in H. exact (IH _ _ _ H). }
  destruct (K _ _ _ _ H) as [new ->]. exists r, new. auto.
Qed.

Lemma take_word_In left w r : take_word left = Some (w, r) -> In (AWord w) left.
Proof.
  revert r. induction left as [|[m v|u] left IH]; intros r H; cbn in H; [discriminate| |].
  - destruct (take_word left) as [[x y]|]; [|discriminate]. cbn in H. injection H as -> _. right. eauto.
  - injection H as -> _. now left.
Qed.

(** Words of the line are words of argv. *)
Lemma words_of_argv : forall argv options next atoms, parse_argv options next argv = Some atoms ->
  forall w, In (AWord w) atoms -> In w argv.
Proof.
  assert (PL : forall options w o a nx, parse_long options w = Some (o, a, nx) -> forall x, ~ In (AWord x) a).
  { intros options w o a nx H x. unfold parse_long in H. destruct (partition_eq w) as [long v].
    destruct (match filter _ options with [] => _ | _ => _ end) as [|s [|s2 t]]; destruct v as [v|]; try discriminate;
      repeat (match type of H with (if ?b then _ else _) = _ => destruct b end); try discriminate;
      injection H as <- <- <-; cbn; intuition discriminate. }
  assert (PS : forall letters options o a nx, parse_shorts options letters = Some (o, a, nx) -> forall x, ~ In (AWord x) a).
  { induction letters as [|c letters IH]; intros options o a nx H x; cbn [parse_shorts] in H.
    - injection H as <- <- <-. now intros [].
    - destruct (filter _ options) as [|s [|s2 t]]; [| |discriminate].
      + destruct (parse_shorts _ letters) as [[[o1 a1] n1]|] eqn:E; [|discriminate]. injection H as <- <- <-.
        intros [X|X]; [discriminate|]. exact (IH _ _ _ _ E x X).
      + destruct (o_arg s).
        * destruct letters; injection H as <- <- <-; cbn; intuition discriminate.
        * destruct (parse_shorts _ letters) as [[[o1 a1] n1]|] eqn:E; [|discriminate]. injection H as <- <- <-.
          intros [X|X]; [discriminate|]. exact (IH _ _ _ _ E x X). }
  induction argv as [|u argv IH]; intros options next atoms H w I.
  - cbn in H. destruct next; [discriminate|]. injection H as <-. destruct I.
  - cbn [parse_argv] in H. destruct next as [n|].
    + destruct (parse_argv options None argv) as [r|] eqn:E; [|discriminate]. injection H as <-.
      destruct I as [I|I]; [discriminate|]. right. exact (IH _ _ _ E w I).
    + destruct (String.eqb u "--").
      * injection H as <-. destruct I as [I|I]; [injection I as ->; now left|]. right.
        apply in_map_iff in I as (x & X & I). now injection X as ->.
      * destruct (String.prefix "--" u).
        -- destruct (parse_long options u) as [[[o a] nx]|] eqn:E; [|discriminate].
           destruct (parse_argv o nx argv) as [r|] eqn:E2; [|discriminate]. injection H as <-.
           apply in_app_iff in I as [I|I]; [destruct (PL _ _ _ _ _ E w I)|]. right. exact (IH _ _ _ E2 w I).
        -- assert (X : option_map (cons (AWord u)) (parse_argv options None argv) = Some atoms -> In w (u :: argv)).
           { destruct (parse_argv options None argv) as [r|] eqn:E; [|discriminate]. intro Y. injection Y as <-.
             destruct I as [I|I]; [injection I as ->; now left|]. right. exact (IH _ _ _ E w I). }
           destruct u as [|c u]; [exact (X H)|].
           destruct (Ascii.eqb_spec c "-"%char) as [->|D].
           ++ destruct u as [|c2 u]; [exact (X H)|].
              destruct (parse_shorts options (String c2 u)) as [[[o a] nx]|] eqn:E; [|discriminate].
              destruct (parse_argv o nx argv) as [r|] eqn:E2; [|discriminate]. injection H as <-.
              apply in_app_iff in I as [I|I]; [destruct (PS _ _ _ _ _ E w I)|]. right. exact (IH _ _ _ E2 w I).
           ++ apply X. destruct c as [[] [] [] [] [] [] [] []]; try exact H. exfalso. now apply D.
Qed.
