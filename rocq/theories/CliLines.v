(** Proofs for C151: what comes of a line that is written properly. *)
Require Import String Ascii List Arith Bool Lia.
From Verif Require Import Base CliModel CliSpec CliProofs CliEnd.
Import ListNotations.
Open Scope string_scope.

(** * Reading *)

Lemma parse_word w rest : String.prefix "-" w = false ->
  parse_argv (doc_options ++ usage_flags) None (w :: rest) =
  option_map (cons (AWord w)) (parse_argv (doc_options ++ usage_flags) None rest).
Proof.
  intro H. destruct w as [|c w]; [reflexivity|]. cbn [String.prefix] in H. destruct (ascii_dec "-" c) as [<-|D]; [destruct w; discriminate H|].
  assert (A : String.eqb (String c w) "--" = false).
  { apply String.eqb_neq. intro E. injection E as -> _. now apply D. }
  assert (B : String.prefix "--" (String c w) = false).
  { cbn [String.prefix]. destruct (ascii_dec "-" c); [contradiction|reflexivity]. }
  cbn [parse_argv]. rewrite A, B. destruct c as [[] [] [] [] [] [] [] []]; try reflexivity. exfalso. now apply D.
Qed.

Lemma step_long options w rest o a nx : String.eqb w "--" = false -> String.prefix "--" w = true ->
  parse_long options w = Some (o, a, nx) ->
  parse_argv options None (w :: rest) = option_map (app a) (parse_argv o nx rest).
Proof. intros A B C. cbn [parse_argv]. now rewrite A, B, C. Qed.

Lemma step_short options c letters rest o a nx : String.eqb (String c letters) "-" = false ->
  String.prefix "-" (String c letters) = false ->
  parse_shorts options (String c letters) = Some (o, a, nx) ->
  parse_argv options None (String "-" (String c letters) :: rest) = option_map (app a) (parse_argv o nx rest).
Proof.
  intros A B C. cbn [parse_argv]. rewrite C.
  assert (D : c <> "-"%char) by (intros ->; destruct letters; discriminate B).
  assert (E : String.eqb (String "-" (String c letters)) "--" = false).
  { apply String.eqb_neq. intro X. injection X as -> _. now apply D. }
  assert (F : String.prefix "--" (String "-" (String c letters)) = false).
  { cbn [String.prefix]. destruct (ascii_dec "-" "-"); [|reflexivity]. destruct (ascii_dec "-" c); [congruence|reflexivity]. }
  now rewrite E, F.
Qed.

Lemma pending options n v rest : parse_argv options (Some n) (v :: rest) = option_map (cons (AOption n (VStr v))) (parse_argv options None rest).
Proof. reflexivity. Qed.

Lemma join_one a (x : option (list atom)) : option_map (app [a]) x = option_map (cons a) x.
Proof. now destruct x. Qed.
Lemma join_none (x : option (list atom)) : option_map (app []) x = x.
Proof. now destruct x. Qed.

Lemma parse_one ws a rest : spelled ws a ->
  parse_argv (doc_options ++ usage_flags) None (ws ++ rest)%list =
  option_map (cons a) (parse_argv (doc_options ++ usage_flags) None rest).
Proof.
  intro H. destruct H as [w H|f H|n v H|n v H|s n v H|s n v N H]; cbn [app].
  - now apply parse_word.
  - destruct H as [<-|[<-|[<-|[<-|[]]]]].
    + erewrite step_long; [apply join_one|reflexivity..].
    + erewrite step_short; [apply join_one|reflexivity..].
    + erewrite step_long; [apply join_one|reflexivity..].
    + erewrite step_short; [apply join_one|reflexivity..].
  - repeat (destruct H as [<-|H]; [erewrite step_long; [rewrite join_none; apply pending|reflexivity..]|]). destruct H.
  - repeat (destruct H as [<-|H]; [erewrite step_long; [apply join_one|reflexivity..]|]). destruct H.
  - repeat (destruct H as [H|H]; [injection H as <- <-; erewrite step_short; [rewrite join_none; apply pending|reflexivity..]|]). destruct H.
  - destruct v as [|c v]; [congruence|].
    repeat (destruct H as [H|H]; [injection H as <- <-; cbn [append]; erewrite step_short; [apply join_one|reflexivity..]|]). destruct H.
Qed.

Lemma parse_lines wss atoms : Forall2 spelled wss atoms ->
  parse_argv (doc_options ++ usage_flags) None (concat wss) = Some atoms.
Proof.
  induction 1 as [|ws a wss atoms H _ IH]; [reflexivity|]. cbn [concat]. rewrite (parse_one _ _ _ H), IH. reflexivity.
Qed.

(** * Options of a line *)

Definition names (os : list (string * value)) : list string := map fst os.
Definition but (n : string) (os : list (string * value)) := filter (fun x => negb (String.eqb (fst x) n)) os.

Lemma drop_some n v os : NoDup (names os) -> In (n, v) os -> drop_first n os = Some (v, but n os).
Proof.
  induction os as [|[m w] os IH]; intros N H; [destruct H|]. cbn in N. inversion N as [|? ? A B]; subst. cbn [drop_first but filter fst].
  destruct (String.eqb_spec m n) as [->|D]; cbn [negb].
  - destruct H as [H|H]; [|exfalso; apply A; change n with (fst (n, v)); now apply in_map].
    injection H as ->. f_equal. f_equal. symmetry. clear IH N B. induction os as [|[k x] os IH]; [reflexivity|].
    cbn in A. cbn [filter fst]. destruct (String.eqb_spec k n) as [->|]; [exfalso; apply A; now left|].
    cbn [negb]. rewrite IH; [reflexivity|]. intro X. apply A. now right.
  - destruct H as [H|H]; [injection H as -> _; congruence|]. fold (but n os). rewrite (IH B H). reflexivity.
Qed.

Lemma drop_none n os : ~ In n (names os) -> drop_first n os = None.
Proof.
  induction os as [|[m w] os IH]; intro H; [reflexivity|]. cbn [drop_first]. cbn in H.
  destruct (String.eqb_spec m n) as [->|D]; [exfalso; apply H; now left|]. rewrite IH; [reflexivity|]. intro X. apply H. now right.
Qed.

Lemma but_names n os k : In k (names (but n os)) <-> k <> n /\ In k (names os).
Proof.
  unfold names, but. rewrite !in_map_iff. split.
  - intros (x & E & H). apply filter_In in H as [H1 H2]. apply negb_true_iff, String.eqb_neq in H2. subst k. split; [exact H2|].
    exists x. auto.
  - intros (D & x & E & H). exists x. split; [exact E|]. apply filter_In. split; [exact H|]. apply negb_true_iff, String.eqb_neq.
    congruence.
Qed.

Lemma but_In n os k v : In (k, v) (but n os) <-> k <> n /\ In (k, v) os.
Proof. unfold but. rewrite filter_In. cbn [fst]. rewrite negb_true_iff, String.eqb_neq. tauto. Qed.

Lemma but_NoDup n os : NoDup (names os) -> NoDup (names (but n os)).
Proof.
  induction os as [|[m w] os IH]; intro N; [constructor|]. cbn in N. inversion N as [|? ? A B]; subst.
  cbn [but filter fst]. destruct (negb (String.eqb m n)); [|now apply IH]. cbn [names map fst]. constructor; [|now apply IH].
  fold (but n os). fold (names (but n os)). rewrite but_names. intros [_ X]. now apply A.
Qed.

Lemma m_option_some n v left c : NoDup (names (given left)) -> In (n, v) (given left) ->
  exists left', matches (POption n) left c = (true, left', (c ++ [(n, v)])%list) /\ plain_words left' = plain_words left /\
    given left' = but n (given left).
Proof.
  intros N H. cbn [matches]. pose proof (take_option_spec n left) as T. rewrite (drop_some n v _ N H) in T.
  destruct (take_option n left) as [[w r]|]; [|discriminate]. destruct T as (A & B & _). injection A as <- E.
  exists r. auto.
Qed.

Lemma m_option_none n left c : ~ In n (names (given left)) -> matches (POption n) left c = (false, left, c).
Proof.
  intro H. cbn [matches]. pose proof (take_option_spec n left) as T. rewrite (drop_none n _ H) in T.
  destruct (take_option n left) as [[w r]|]; [destruct T; discriminate|reflexivity].
Qed.

Lemma has_value n os : In n (names os) -> exists v, In (n, v) os.
Proof. unfold names. rewrite in_map_iff. intros ([m v] & E & H). cbn in E. subst m. eauto. Qed.

Lemma name_of n v os : In (n, v) os -> In n (names os).
Proof. intro H. change n with (fst (n, v)). now apply in_map. Qed.

Lemma any_options ns : forall left c, NoDup (names (given left)) -> NoDup ns ->
  exists left' picks, any_of (map POption ns) left c = (true, left', (c ++ picks)%list) /\
    plain_words left' = plain_words left /\
    (forall n v, In (n, v) (given left') <-> ~ In n ns /\ In (n, v) (given left)) /\
    (forall n v, In (n, v) picks <-> In n ns /\ In (n, v) (given left)) /\ NoDup (names picks).
Proof.
  induction ns as [|n ns IH]; intros left c N Nn.
  - exists left, []. cbn. rewrite app_nil_r. repeat split; try tauto; constructor.
  - inversion Nn as [|? ? A B]; subst. cbn [map any_of].
    destruct (in_dec string_dec n (names (given left))) as [H|H].
    + destruct (has_value _ _ H) as [v Hv]. destruct (m_option_some n v left c N Hv) as (l1 & M & W & G). rewrite M.
      destruct (IH l1 (c ++ [(n, v)])%list) as (l2 & picks & E & W2 & G2 & P & NP); [rewrite G; now apply but_NoDup|exact B|].
      exists l2, ((n, v) :: picks). rewrite E. split; [f_equal; now rewrite <- app_assoc|]. split; [congruence|].
      split; [|split].
      * intros k w. rewrite G2, G, but_In. cbn [In]. split; [intros (X & Y & Z); split; [intros [->|U]; tauto|exact Z]|].
        intros (X & Y). split; [tauto|]. split; [|exact Y]. intros ->. apply X. now left.
      * intros k w. cbn [In]. rewrite P, G, but_In. split.
        -- intros [X|(X & Y & Z)]; [injection X as <- <-; auto|auto].
        -- intros [[<-|X] Y]; [left; f_equal; symmetry|right].
           ++ pose proof (drop_some _ _ _ N Y) as D1. pose proof (drop_some _ _ _ N Hv) as D2. rewrite D1 in D2. congruence.
           ++ split; [exact X|]. split; [|exact Y]. intros ->. contradiction.
      * cbn [names map fst]. constructor; [|exact NP]. intro X. fold (names picks) in X. apply has_value in X as [w X].
        apply P in X as [X _]. contradiction.
    + rewrite (m_option_none n left c H). destruct (IH left c N B) as (l2 & picks & E & W2 & G2 & P & NP).
      exists l2, picks. rewrite E. split; [reflexivity|]. split; [exact W2|]. split; [|split; [|exact NP]].
      * intros k w. rewrite G2. cbn [In]. split; intros [X Y]; (split; [|exact Y]); [|tauto].
        intros [->|U]; [|tauto]. apply H. exact (name_of _ _ _ Y).
      * intros k w. rewrite P. cbn [In]. split; [tauto|]. intros [[<-|X] Y]; [|tauto]. exfalso. apply H. exact (name_of _ _ _ Y).
Qed.

Definition doc_names : list string := map o_name doc_options.

Lemma doc_NoDup : NoDup doc_names.
Proof. repeat constructor; cbn; intuition discriminate. Qed.

Lemma shortcut left c : NoDup (names (given left)) -> (forall n, In n (names (given left)) -> In n doc_names) ->
  plain_words left = [] ->
  exists picks, matches options_shortcut left c = (true, [], (c ++ picks)%list) /\
    (forall n v, In (n, v) picks <-> In (n, v) (given left)) /\ NoDup (names picks).
Proof.
  intros N D W. unfold options_shortcut. rewrite matches_optional. cbn [any_of]. rewrite matches_optional.
  rewrite <- (map_map o_name POption). fold doc_names.
  destruct (any_options doc_names left c N doc_NoDup) as (l2 & picks & E & W2 & G & P & NP). rewrite E.
  exists picks. split; [|split; [|exact NP]].
  - do 2 f_equal. apply nothing_left; [congruence|]. destruct (given l2) as [|[n v] t] eqn:X; [reflexivity|]. exfalso.
    destruct (proj1 (G n v) (or_introl eq_refl)) as [Y1 Y2]. apply Y1, D. exact (name_of _ _ _ Y2).
  - intros n v. rewrite P. split; [tauto|]. intro H. split; [|exact H]. apply D. exact (name_of _ _ _ H).
Qed.

(** * Choosing the line *)

Definition fails (left : list atom) (p : pat) : Prop := matches p left [] = (false, left, []).

Lemma each_fail left l best : Forall (fails left) l -> each_of left [] l best = best.
Proof.
  revert best. induction l as [|p l IH]; intros best H; [reflexivity|]. inversion H as [|? ? A B]; subst.
  cbn [each_of]. rewrite A. cbn [better]. now apply IH.
Qed.

Lemma choose left l1 p l2 lf c : Forall (fails left) l1 -> Forall (fails left) l2 -> matches p left [] = (true, lf, c) ->
  matches (PRequired [PEither (l1 ++ p :: l2)]) left [] = (true, lf, c).
Proof.
  intros F1 F2 M. rewrite matches_required. cbn [all_of]. rewrite matches_either.
  assert (E : each_of left [] (l1 ++ p :: l2) None = Some (true, lf, c)).
  { revert F1. induction l1 as [|q l1 IH]; intro F1; cbn [app each_of].
    - rewrite M. cbn [better]. now apply each_fail.
    - inversion F1 as [|? ? A B]; subst. rewrite A. cbn [better]. now apply IH. }
  now rewrite E.
Qed.

Lemma wrong_command k n rest left ws : plain_words left = k :: ws -> k <> n -> fails left (PRequired (PCommand n :: rest)).
Proof.
  intros W D. unfold fails. rewrite matches_required. cbn [all_of matches]. pose proof (take_word_spec left) as T.
  destruct (take_word left) as [[w r]|]; [|rewrite W in T; discriminate]. destruct T as (A & _). rewrite W in A. injection A as -> _.
  apply String.eqb_neq in D. now rewrite D.
Qed.

Lemma wrong_stats k rest left ws : plain_words left = k :: ws -> k <> "stats" -> k <> "statistics" ->
  fails left (PRequired (PRequired [PEither [PCommand "stats"; PCommand "statistics"]] :: rest)).
Proof.
  intros W D1 D2. unfold fails. rewrite matches_required. cbn [all_of]. rewrite matches_required. cbn [all_of]. rewrite matches_either.
  cbn [each_of matches]. pose proof (take_word_spec left) as T.
  destruct (take_word left) as [[w r]|]; [|rewrite W in T; discriminate]. destruct T as (A & _). rewrite W in A. injection A as -> _.
  apply String.eqb_neq in D1, D2. now rewrite D1, D2.
Qed.

Lemma no_help left : ~ In "-h" (names (given left)) -> ~ In "--help" (names (given left)) ->
  fails left (PRequired [PEither [POption "-h"; POption "--help"]]).
Proof.
  intros A B. unfold fails. rewrite matches_required. cbn [all_of]. rewrite matches_either. cbn [each_of].
  rewrite (m_option_none _ _ _ A), (m_option_none _ _ _ B). reflexivity.
Qed.

Lemma m_command k left ws c : plain_words left = k :: ws ->
  exists left', matches (PCommand k) left c = (true, left', (c ++ [(k, VBool true)])%list) /\ plain_words left' = ws /\ given left' = given left.
Proof.
  intro W. cbn [matches]. pose proof (take_word_spec left) as T. destruct (take_word left) as [[w r]|]; [|rewrite W in T; discriminate].
  destruct T as (A & B & _). rewrite W in A. injection A as <- E. rewrite String.eqb_refl. exists r. auto.
Qed.

Lemma m_argument n w left ws c : plain_words left = w :: ws ->
  exists left', matches (PArgument n) left c = (true, left', (c ++ [(n, VStr w)])%list) /\ plain_words left' = ws /\ given left' = given left.
Proof.
  intro W. cbn [matches]. pose proof (take_word_spec left) as T. destruct (take_word left) as [[x r]|]; [|rewrite W in T; discriminate].
  destruct T as (A & B & _). rewrite W in A. injection A as <- E. exists r. auto.
Qed.

(** One of two flags and the word for it. *)
Lemma flag_word a b f n w left ws c : NoDup (names (given left)) -> f = a \/ f = b ->
  In f (names (given left)) -> (forall g, g = a \/ g = b -> In g (names (given left)) -> g = f) ->
  plain_words left = w :: ws ->
  exists left' v, matches (POptional [PRequired [PEither [POption a; POption b]; PArgument n]]) left c =
    (true, left', (c ++ [(f, v); (n, VStr w)])%list) /\ plain_words left' = ws /\ given left' = but f (given left).
Proof.
  intros N F I U W. rewrite matches_optional. cbn [any_of]. rewrite matches_required. cbn [all_of].
  destruct (has_value _ _ I) as [v Hv]. destruct (m_option_some f v left c N Hv) as (l1 & M & W1 & G1).
  assert (E : matches (PEither [POption a; POption b]) left c = (true, l1, (c ++ [(f, v)])%list)).
  { rewrite matches_either. cbn [each_of].
    destruct (string_dec a b) as [<-|D].
    - assert (f = a) by tauto. subst f. rewrite M. cbn [better]. now rewrite Nat.ltb_irrefl.
    - destruct F as [->| ->].
      + rewrite M. rewrite (m_option_none b left c); [reflexivity|]. intro X. apply D. symmetry. apply U; auto.
      + rewrite M. rewrite (m_option_none a left c); [reflexivity|]. intro X. apply D. apply U; auto. }
  rewrite E. destruct (m_argument n w l1 ws (c ++ [(f, v)])%list) as (l2 & M2 & W2 & G2); [congruence|].
  rewrite M2. exists l2, v. split; [now rewrite <- app_assoc|]. split; [exact W2|congruence].
Qed.

(** * The dictionary *)

Lemma spelled_names wss atoms : Forall2 spelled wss atoms -> forall n, In n (names (given atoms)) ->
  In n (["--timeout"; "-t"; "--step"; "-s"] ++ doc_names)%list.
Proof.
  induction 1 as [|ws a wss atoms H _ IH]; intros n I; [destruct I|].
  destruct H as [w H|f H|m v H|m v H|s m v H|s m v N H]; cbn [given flat_map app names map fst] in I;
    fold (given atoms) in I; fold (names (given atoms)) in I.
  - now apply IH.
  - destruct I as [<-|I]; [|now apply IH]. apply in_or_app. now left.
  - destruct I as [<-|I]; [|now apply IH]. cbn in *. intuition (subst; auto 15).
  - destruct I as [<-|I]; [|now apply IH]. cbn in *. intuition (subst; auto 15).
  - destruct I as [<-|I]; [|now apply IH]. cbn in *. intuition (try match goal with X : (_, _) = (_, _) |- _ => injection X as <- <- end; auto 15).
  - destruct I as [<-|I]; [|now apply IH]. cbn in *. intuition (try match goal with X : (_, _) = (_, _) |- _ => injection X as <- <- end; auto 15).
Qed.

Lemma no_option ns left : (forall n, In n ns -> ~ In n (names (given left))) -> has_option ns left = false.
Proof.
  intro H. destruct (has_option ns left) eqn:X; [|reflexivity]. exfalso. apply existsb_exists in X as (a & I & X).
  destruct a as [n v|w]; [|discriminate]. apply andb_true_iff in X as [X _]. apply existsb_exists in X as (m & M & E).
  apply String.eqb_eq in E. subst m. apply (H n M). unfold names, given. apply in_map_iff. exists (n, v). split; [reflexivity|].
  apply in_flat_map. exists (AOption n v). split; [exact I|now left].
Qed.

(** * The dictionary for options *)

Lemma find_picks os n : match find (fun x : string * value => String.eqb (fst x) n) os with
  | Some (m, v) => m = n /\ In (n, v) os
  | None => ~ In n (names os)
  end.
Proof.
  destruct (find _ os) as [[m v]|] eqn:F.
  - apply find_some in F as [A B]. cbn in B. apply String.eqb_eq in B. subst m. auto.
  - intro H. apply has_value in H as [v H]. apply (find_none _ _ F) in H. cbn in H. apply String.eqb_neq in H. congruence.
Qed.

Lemma effective_ext rd pd os os' n : NoDup (names os) -> NoDup (names os') -> (forall m v, In (m, v) os <-> In (m, v) os') ->
  effective rd pd os n = effective rd pd os' n.
Proof.
  intros N N' H. unfold effective. pose proof (find_picks os n) as A. pose proof (find_picks os' n) as B.
  destruct (find _ os) as [[m v]|]; destruct (find _ os') as [[m' v']|].
  - destruct A as [-> A], B as [-> B]. apply H in A. pose proof (drop_some _ _ _ N' A) as D1. pose proof (drop_some _ _ _ N' B) as D2. congruence.
  - destruct A as [-> A]. exfalso. apply B. apply H in A. exact (name_of _ _ _ A).
  - destruct B as [-> B]. exfalso. apply A. apply H in B. exact (name_of _ _ _ B).
  - reflexivity.
Qed.

Lemma arg_last d n v : arg (d ++ [(n, v)])%list n = v.
Proof. rewrite arg_app. cbn [existsb fst]. rewrite String.eqb_refl. cbn. now rewrite String.eqb_refl. Qed.

Lemma arg_three pre picks n : ~ In n (names pre) -> NoDup (names picks) ->
  arg (defaults ++ pre ++ picks)%list n =
  match find (fun x => String.eqb (fst x) n) picks with Some (_, v) => v | None => arg defaults n end.
Proof.
  intros D N. rewrite !arg_app, existsb_app. rewrite (existsb_absent pre n D). cbn [orb].
  pose proof (find_picks picks n) as F. destruct (find _ picks) as [[m v]|].
  - destruct F as [-> F]. pose proof (name_of _ _ _ F) as X. apply existsb_names in X. rewrite X. now apply arg_unique.
  - now rewrite (existsb_absent picks n F).
Qed.

Lemma dict_doc rd pd pre picks n : (forall m, In m (names pre) -> ~ In m doc_names) -> NoDup (names picks) ->
  (forall m v, In (m, v) picks -> m = "--dir" \/ m = "-o" -> truthy v = true) -> In n doc_names ->
  arg (set_default_options rd pd (defaults ++ pre ++ picks)%list) n = effective rd pd picks n.
Proof.
  intros D N T I. assert (Dn : forall k, In k doc_names -> ~ In k (names pre)) by (intros k K X; exact (D k X K)).
  assert (X : forall d0 k m v, m <> k -> arg (d0 ++ [(m, v)])%list k = arg d0 k).
  { intros d0 k m v Nk. rewrite arg_app. cbn [existsb fst]. apply String.eqb_neq in Nk. now rewrite Nk. }
  set (d := (defaults ++ pre ++ picks)%list).
  assert (E : forall k, In k doc_names -> arg d k = match find (fun x => String.eqb (fst x) k) picks with Some (_, v) => v | None => arg defaults k end)
    by (intros k K; apply arg_three; auto).
  destruct (string_dec n "--dir") as [->|N1]; [|destruct (string_dec n "-o") as [->|N2]].
  - assert (Y : arg (set_default_options rd pd d) "--dir" = arg (if truthy (arg d "--dir") then d else (d ++ [("--dir", VStr rd)])%list) "--dir").
    { unfold set_default_options. destruct (truthy (arg d "--dir")); destruct (truthy (arg _ "-o")); rewrite ?X by discriminate; reflexivity. }
    rewrite Y. unfold effective. rewrite String.eqb_refl. rewrite (E _ I). pose proof (find_picks picks "--dir") as F.
    destruct (find _ picks) as [[m v]|] eqn:FE.
    + destruct F as [-> F]. rewrite (T _ _ F (or_introl eq_refl)). rewrite (E _ I), FE. reflexivity.
    + change (truthy (arg defaults "--dir")) with false. cbv iota. apply arg_last.
  - unfold effective. change (String.eqb "-o" "--dir") with false. rewrite String.eqb_refl. cbv iota.
    unfold set_default_options. set (d1 := if truthy (arg d "--dir") then d else (d ++ [("--dir", VStr rd)])%list).
    assert (Y : arg d1 "-o" = arg d "-o") by (unfold d1; destruct (truthy (arg d "--dir")); rewrite ?X by discriminate; reflexivity).
    cbv zeta. rewrite Y. rewrite (E _ I). pose proof (find_picks picks "-o") as F.
    destruct (find _ picks) as [[m v]|] eqn:FE.
    + destruct F as [-> F]. rewrite (T _ _ F (or_intror eq_refl)). rewrite Y, (E _ I), FE. reflexivity.
    + change (truthy (arg defaults "-o")) with false. cbv iota. apply arg_last.
  - rewrite set_default_other by assumption. rewrite (E _ I). unfold effective.
    destruct (find _ picks) as [[m v]|]; [reflexivity|]. apply String.eqb_neq in N1, N2. rewrite N1, N2.
    apply String.eqb_neq in N1, N2. cbn in I. repeat (destruct I as [<-|I]; [first [congruence|reflexivity]|]). destruct I.
Qed.

Lemma dict_other rd pd pre picks n : ~ In n doc_names -> (forall m v, In (m, v) picks -> In m doc_names) ->
  arg (set_default_options rd pd (defaults ++ pre ++ picks)%list) n = arg (defaults ++ pre)%list n.
Proof.
  intros D P. rewrite set_default_other by (intros ->; apply D; cbn; auto 12).
  rewrite app_assoc, arg_app. rewrite existsb_absent; [reflexivity|]. intro X. apply has_value in X as [v X]. exact (D (P _ _ X)).
Qed.

Lemma spelled_values wss atoms : Forall2 spelled wss atoms -> forall n v, In (n, v) (given atoms) -> In n doc_names -> exists s, v = VStr s.
Proof.
  induction 1 as [|ws a wss atoms H _ IH]; intros n v I D; [destruct I|].
  destruct H as [w H|f H|m x H|m x H|s m x H|s m x N H]; cbn [given flat_map app] in I; fold (given atoms) in I;
    try (destruct I as [I|I]; [injection I as <- <-; eexists; reflexivity|now apply IH with n]).
  - now apply IH with n.
  - destruct I as [I|I]; [|now apply IH with n]. injection I as <- <-. exfalso. cbn in H, D.
    repeat (destruct H as [<-|H]; [cbn in D; intuition discriminate|]). destruct H.
Qed.

(** * The three kinds of lines *)

Section Line.
  Variables (wss : list (list string)) (atoms : list atom) (rd pd : string).
  Hypothesis spelt : Forall2 spelled wss atoms.
  Hypothesis distinct : NoDup (map fst (given atoms)).
  Hypothesis nonempty : forall n, In (n, VStr "") (given atoms) -> n <> "--dir" /\ n <> "-o".

  Lemma read_line l1 p l2 c : usage_lines = (l1 ++ p :: l2)%list -> Forall (fails atoms) l1 -> Forall (fails atoms) l2 ->
    matches p atoms [] = (true, [], c) ->
    main_worker rd pd (concat wss) =
      Runs (find (fun k => truthy (arg (set_default_options rd pd (defaults ++ c)) k)) run_dict)
           (set_default_options rd pd (defaults ++ c)).
  Proof using spelt.
    intros E F1 F2 M. unfold main_worker, docopt. rewrite (parse_lines _ _ spelt).
    assert (H : forall ns, (forall n, In n ns -> ~ In n (["--timeout"; "-t"; "--step"; "-s"] ++ doc_names)%list) -> has_option ns atoms = false).
    { intros ns K. apply no_option. intros n I X. exact (K n I (spelled_names _ _ spelt n X)). }
    rewrite !H by (intros n I X; cbn in I; repeat (destruct I as [<-|I]; [cbn in X; intuition discriminate|]); destruct I).
    rewrite E, (choose _ _ _ _ _ _ F1 F2 M). reflexivity.
  Qed.

  Lemma without_help : fails atoms (PRequired [PEither [POption "-h"; POption "--help"]]).
  Proof using spelt.
    apply no_help; intro X; apply (spelled_names _ _ spelt) in X; cbn in X; intuition discriminate.
  Qed.

  Lemma picks_true picks : (forall n v, In (n, v) picks -> In (n, v) (given atoms)) ->
    forall m v, In (m, v) picks -> m = "--dir" \/ m = "-o" -> truthy v = true.
  Proof using spelt nonempty.
    intros P m v H E. apply P in H. assert (D : In m doc_names) by (destruct E as [-> | ->]; cbn; auto 12).
    destruct (spelled_values _ _ spelt _ _ H D) as [s ->]. cbn. apply negb_true_iff, String.eqb_neq. intros ->.
    destruct (nonempty _ H). tauto.
  Qed.

  (** stats, statistics, pictures, pictures_summary, best_fronts, violin *)
  Lemma simple_line k : In k ["stats"; "statistics"; "pictures"; "pictures_summary"; "best_fronts"; "violin"] ->
    plain_words atoms = [k] -> (forall n, In n (names (given atoms)) -> In n doc_names) ->
    exists d, main_worker rd pd (concat wss) = Runs (Some k) d /\
      forall n, In n doc_names -> arg d n = effective rd pd (given atoms) n.
  Proof using spelt distinct nonempty.
    intros K W D.
    assert (L : exists l1 p l2 picks, usage_lines = (l1 ++ p :: l2)%list /\ Forall (fails atoms) l1 /\ Forall (fails atoms) l2 /\
      matches p atoms [] = (true, [], (k, VBool true) :: picks) /\ (forall n v, In (n, v) picks <-> In (n, v) (given atoms)) /\ NoDup (names picks)).
    { assert (A : forall l1 l2, usage_lines = (l1 ++ PRequired [PCommand k; options_shortcut] :: l2)%list -> Forall (fails atoms) l1 ->
        Forall (fails atoms) l2 -> exists l1 p l2 picks, usage_lines = (l1 ++ p :: l2)%list /\ Forall (fails atoms) l1 /\ Forall (fails atoms) l2 /\
      matches p atoms [] = (true, [], (k, VBool true) :: picks) /\ (forall n v, In (n, v) picks <-> In (n, v) (given atoms)) /\ NoDup (names picks)).
      { intros l1 l2 E F1 F2. destruct (m_command k atoms [] [] W) as (a1 & M1 & W1 & G1).
        destruct (shortcut a1 [(k, VBool true)]) as (picks & M2 & P & NP); [now rewrite G1|rewrite G1; exact D|exact W1|].
        exists l1, (PRequired [PCommand k; options_shortcut]), l2, picks. split; [exact E|]. split; [exact F1|]. split; [exact F2|].
        split; [|split; [intros n v; rewrite P, G1; reflexivity|exact NP]].
        rewrite matches_required. cbn [all_of]. rewrite M1. cbn [app]. rewrite M2. reflexivity. }
      assert (B : forall l1 l2, usage_lines = (l1 ++ PRequired [PRequired [PEither [PCommand "stats"; PCommand "statistics"]]; options_shortcut] :: l2)%list -> Forall (fails atoms) l1 ->
        Forall (fails atoms) l2 -> k = "stats" \/ k = "statistics" -> exists l1 p l2 picks, usage_lines = (l1 ++ p :: l2)%list /\ Forall (fails atoms) l1 /\ Forall (fails atoms) l2 /\
      matches p atoms [] = (true, [], (k, VBool true) :: picks) /\ (forall n v, In (n, v) picks <-> In (n, v) (given atoms)) /\ NoDup (names picks)).
      { intros l1 l2 E F1 F2 K2. destruct (m_command k atoms [] [] W) as (a1 & M1 & W1 & G1).
        destruct (shortcut a1 [(k, VBool true)]) as (picks & M2 & P & NP); [now rewrite G1|rewrite G1; exact D|exact W1|].
        exists l1, (PRequired [PRequired [PEither [PCommand "stats"; PCommand "statistics"]]; options_shortcut]), l2, picks.
        split; [exact E|]. split; [exact F1|]. split; [exact F2|].
        split; [|split; [intros n v; rewrite P, G1; reflexivity|exact NP]].
        assert (X : matches (PEither [PCommand "stats"; PCommand "statistics"]) atoms [] = (true, a1, [(k, VBool true)])).
        { rewrite matches_either. cbn [each_of].
          assert (Y : forall n, n <> k -> matches (PCommand n) atoms [] = (false, atoms, [])).
          { intros n Nn. cbn [matches]. pose proof (take_word_spec atoms) as T. destruct (take_word atoms) as [[w r]|]; [|reflexivity].
            destruct T as (T & _). rewrite W in T. injection T as <- _. destruct (String.eqb_spec k n); [congruence|reflexivity]. }
          destruct K2 as [-> | ->].
          - rewrite M1. rewrite (Y "statistics") by discriminate. reflexivity.
          - rewrite M1. rewrite (Y "stats") by discriminate. reflexivity. }
        rewrite matches_required. cbn [all_of]. rewrite matches_required. cbn [all_of]. rewrite X. cbn [app]. rewrite M2. reflexivity. }
      cbn in K. destruct K as [<-|[<-|[<-|[<-|[<-|[<-|[]]]]]]].
      - refine (B (firstn 4 usage_lines) (skipn 5 usage_lines) eq_refl _ _ (or_introl eq_refl));
          repeat (apply Forall_cons; [first [exact without_help|eapply wrong_command; [exact W|discriminate]]|]); constructor.
      - refine (B (firstn 4 usage_lines) (skipn 5 usage_lines) eq_refl _ _ (or_intror eq_refl));
          repeat (apply Forall_cons; [first [exact without_help|eapply wrong_command; [exact W|discriminate]]|]); constructor.
      - refine (A (firstn 9 usage_lines) (skipn 10 usage_lines) eq_refl _ _);
          repeat (apply Forall_cons; [first [exact without_help|eapply wrong_command; [exact W|discriminate]|eapply wrong_stats; [exact W|discriminate|discriminate]]|]); constructor.
      - refine (A (firstn 10 usage_lines) (skipn 11 usage_lines) eq_refl _ _);
          repeat (apply Forall_cons; [first [exact without_help|eapply wrong_command; [exact W|discriminate]|eapply wrong_stats; [exact W|discriminate|discriminate]]|]); constructor.
      - refine (A (firstn 11 usage_lines) (skipn 12 usage_lines) eq_refl _ _);
          repeat (apply Forall_cons; [first [exact without_help|eapply wrong_command; [exact W|discriminate]|eapply wrong_stats; [exact W|discriminate|discriminate]]|]); constructor.
      - refine (A (firstn 12 usage_lines) (skipn 13 usage_lines) eq_refl _ _);
          repeat (apply Forall_cons; [first [exact without_help|eapply wrong_command; [exact W|discriminate]|eapply wrong_stats; [exact W|discriminate|discriminate]]|]); constructor. }
    destruct L as (l1 & p & l2 & picks & E & F1 & F2 & M & P & NP).
    pose proof (read_line _ _ _ _ E F1 F2 M) as R. eexists. split.
    - rewrite R. f_equal. destruct (one_command _ _ _ _ _ R) as (k0 & -> & I0 & _ & U).
      f_equal. symmetry. apply U; [cbn in K |- *; intuition (subst; auto 15)|].
      change ((k, VBool true) :: picks) with ([(k, VBool true)] ++ picks)%list. rewrite dict_other.
      + rewrite arg_last. reflexivity.
      + cbn in K |- *. intuition (subst; discriminate).
      + intros m v H. apply D. apply P in H. exact (name_of _ _ _ H).
    - intros n I. change ((k, VBool true) :: picks) with ([(k, VBool true)] ++ picks)%list. rewrite dict_doc.
      + apply effective_ext; [exact NP|exact distinct|exact P].
      + intros m [<-|[]]. cbn in K |- *. intuition (subst; discriminate).
      + exact NP.
      + apply picks_true. intros m v H. now apply P.
      + exact I.
  Qed.

  (** run budget *)
  Lemma budget_line b : plain_words atoms = ["run"; "budget"; b] -> (forall n, In n (names (given atoms)) -> In n doc_names) ->
    exists d, main_worker rd pd (concat wss) = Runs (Some "run") d /\ resolve_limits d = Some (Budgets b) /\
      forall n, In n doc_names -> arg d n = effective rd pd (given atoms) n.
  Proof using spelt distinct nonempty.
    intros W D.
    destruct (m_command "run" atoms _ [] W) as (a1 & M1 & W1 & G1).
    destruct (m_command "budget" a1 _ [("run", VBool true)] W1) as (a2 & M2 & W2 & G2).
    destruct (m_argument "<budget>" b a2 _ [("run", VBool true); ("budget", VBool true)] W2) as (a3 & M3 & W3 & G3).
    set (pre := [("run", VBool true); ("budget", VBool true); ("<budget>", VStr b)]).
    assert (G : given a3 = given atoms) by congruence.
    destruct (shortcut a3 pre) as (picks & M4 & P & NP); [now rewrite G|rewrite G; exact D|exact W3|].
    assert (M : matches (PRequired [PCommand "run"; PCommand "budget"; PArgument "<budget>"; options_shortcut]) atoms [] = (true, [], (pre ++ picks)%list)).
    { rewrite matches_required. cbn [all_of]. rewrite M1. cbn [app]. rewrite M2. cbn [app]. rewrite M3. cbn [app]. fold pre. rewrite M4. reflexivity. }
    assert (F : fails atoms (PRequired [PCommand "run"; PCommand "time";
               POptional [PRequired [PEither [POption "--timeout"; POption "-t"]; PArgument "<timeout>"]];
               POptional [PRequired [PEither [POption "--step"; POption "-s"]; PArgument "<step>"]]; options_shortcut])).
    { unfold fails. rewrite matches_required. cbn [all_of]. rewrite M1. cbn [matches]. pose proof (take_word_spec a1) as T.
      destruct (take_word a1) as [[w r]|]; [|reflexivity]. destruct T as (T & _). rewrite W1 in T. injection T as <- _. reflexivity. }
    assert (R : main_worker rd pd (concat wss) = Runs (find (fun k => truthy (arg (set_default_options rd pd (defaults ++ pre ++ picks)) k)) run_dict)
           (set_default_options rd pd (defaults ++ pre ++ picks))).
    { refine (read_line (firstn 2 usage_lines) _ (skipn 3 usage_lines) _ eq_refl _ _ M);
        repeat (apply Forall_cons; [first [exact without_help|exact F|eapply wrong_command; [exact W|discriminate]|eapply wrong_stats; [exact W|discriminate|discriminate]]|]); constructor. }
    assert (PD : forall m v, In (m, v) picks -> In m doc_names) by (intros m v H; apply D; apply P in H; rewrite G in H; exact (name_of _ _ _ H)).
    eexists. split; [|split].
    - rewrite R. f_equal. destruct (one_command _ _ _ _ _ R) as (k0 & -> & I0 & _ & U).
      f_equal. symmetry. apply U; [cbn; auto|]. rewrite dict_other; [reflexivity|cbn; intuition discriminate|exact PD].
    - unfold resolve_limits. rewrite !dict_other by (exact PD || (cbn; intuition discriminate)). reflexivity.
    - intros n I. rewrite dict_doc.
      + apply effective_ext; [exact NP|exact distinct|]. intros m v. rewrite P, G. reflexivity.
      + intros m H. cbn in H. repeat (destruct H as [<-|H]; [cbn; intuition discriminate|]). destruct H.
      + exact NP.
      + apply picks_true. intros m v H. apply P in H. now rewrite G in H.
      + exact I.
  Qed.

  (** run time *)
  Lemma time_line T S tf sf : plain_words atoms = ["run"; "time"; T; S] ->
    tf = "--timeout" \/ tf = "-t" -> sf = "--step" \/ sf = "-s" ->
    (forall f, In f ["--timeout"; "-t"; "--step"; "-s"] -> (In f (names (given atoms)) <-> f = tf \/ f = sf)) ->
    exists d, main_worker rd pd (concat wss) = Runs (Some "run") d /\ resolve_limits d = Some (Times T S) /\
      forall n, In n doc_names -> arg d n = effective rd pd (given atoms) n.
  Proof using spelt distinct nonempty.
    intros W Ht Hs D.
    assert (NT : tf <> sf) by (destruct Ht as [-> | ->], Hs as [-> | ->]; discriminate).
    destruct (m_command "run" atoms _ [] W) as (a1 & M1 & W1 & G1).
    destruct (m_command "time" a1 _ [("run", VBool true)] W1) as (a2 & M2 & W2 & G2).
    assert (G12 : given a2 = given atoms) by congruence.
    assert (Df : forall f, f = "--timeout" \/ f = "-t" \/ f = "--step" \/ f = "-s" -> (In f (names (given atoms)) <-> f = tf \/ f = sf))
      by (intros f K; apply D; cbn; intuition (subst; auto)).
    destruct (flag_word "--timeout" "-t" tf "<timeout>" T a2 [S] [("run", VBool true); ("time", VBool true)]) as (a3 & v1 & M3 & W3 & G3).
    { now rewrite G12. } { exact Ht. } { rewrite G12. apply Df; tauto. }
    { intros g Hg I. rewrite G12 in I. apply Df in I; [|tauto]. destruct I as [I|I]; [exact I|]. exfalso.
      subst g. destruct Hg as [-> | ->], Hs as [X|X]; discriminate X. }
    { exact W2. }
    destruct (flag_word "--step" "-s" sf "<step>" S a3 [] ([("run", VBool true); ("time", VBool true)] ++ [(tf, v1); ("<timeout>", VStr T)])%list) as (a4 & v2 & M4 & W4 & G4).
    { rewrite G3, G12. now apply but_NoDup. } { exact Hs. } { rewrite G3, G12. apply but_names. split; [congruence|]. apply Df; tauto. }
    { intros g Hg I. rewrite G3, G12 in I. apply but_names in I as [_ I]. apply Df in I; [|tauto]. destruct I as [I|I]; [|exact I]. exfalso.
      subst g. destruct Hg as [-> | ->], Ht as [X|X]; discriminate X. }
    { exact W3. }
    set (pre := [("run", VBool true); ("time", VBool true); (tf, v1); ("<timeout>", VStr T); (sf, v2); ("<step>", VStr S)]).
    assert (G : forall n v, In (n, v) (given a4) <-> n <> tf /\ n <> sf /\ In (n, v) (given atoms)).
    { intros n v. rewrite G4, but_In, G3, but_In, G12. tauto. }
    assert (GD : forall n, In n (names (given a4)) -> In n doc_names).
    { intros n I. apply has_value in I as [v I]. apply G in I as (A & B & C). pose proof (name_of _ _ _ C) as C2.
      pose proof (spelled_names _ _ spelt n C2) as X. apply in_app_iff in X as [X|X]; [|exact X]. exfalso.
      apply (D n X) in C2. tauto. }
    destruct (shortcut a4 pre) as (picks & M5 & P & NP); [rewrite G4, G3, G12; now do 2 apply but_NoDup|exact GD|exact W4|].
    assert (M : matches (PRequired [PCommand "run"; PCommand "time";
               POptional [PRequired [PEither [POption "--timeout"; POption "-t"]; PArgument "<timeout>"]];
               POptional [PRequired [PEither [POption "--step"; POption "-s"]; PArgument "<step>"]]; options_shortcut]) atoms [] = (true, [], (pre ++ picks)%list)).
    { rewrite matches_required. cbn [all_of]. rewrite M1. cbn [app]. rewrite M2. cbn [app]. rewrite M3. rewrite M4. cbn [app]. fold pre. rewrite M5. reflexivity. }
    assert (F : fails atoms (PRequired [PCommand "run"; PCommand "budget"; PArgument "<budget>"; options_shortcut])).
    { unfold fails. rewrite matches_required. cbn [all_of]. rewrite M1. cbn [matches]. pose proof (take_word_spec a1) as X.
      destruct (take_word a1) as [[w r]|]; [|reflexivity]. destruct X as (X & _). rewrite W1 in X. injection X as <- _. reflexivity. }
    assert (R : main_worker rd pd (concat wss) = Runs (find (fun k => truthy (arg (set_default_options rd pd (defaults ++ pre ++ picks)) k)) run_dict)
           (set_default_options rd pd (defaults ++ pre ++ picks))).
    { refine (read_line (firstn 3 usage_lines) _ (skipn 4 usage_lines) _ eq_refl _ _ M);
        repeat (apply Forall_cons; [first [exact without_help|exact F|eapply wrong_command; [exact W|discriminate]|eapply wrong_stats; [exact W|discriminate|discriminate]]|]); constructor. }
    assert (PD : forall m v, In (m, v) picks -> In m doc_names) by (intros m v H; apply GD; apply P in H; exact (name_of _ _ _ H)).
    eexists. split; [|split].
    - rewrite R. f_equal. destruct (one_command _ _ _ _ _ R) as (k0 & -> & I0 & _ & U).
      f_equal. symmetry. apply U; [cbn; auto|]. rewrite dict_other; [|cbn; intuition discriminate|exact PD].
      clear - Ht Hs. destruct Ht as [-> | ->], Hs as [-> | ->]; reflexivity.
    - unfold resolve_limits. rewrite !dict_other by (exact PD || (cbn; intuition discriminate)).
      clear - Ht Hs. destruct Ht as [-> | ->], Hs as [-> | ->]; reflexivity.
    - intros n I. rewrite dict_doc.
      + assert (Nn : n <> tf /\ n <> sf).
        { clear - I Ht Hs. cbn in I. destruct Ht as [-> | ->], Hs as [-> | ->]; intuition (subst; discriminate). }
        unfold effective. pose proof (find_picks picks n) as A. pose proof (find_picks (given atoms) n) as B.
        destruct (find _ picks) as [[m v]|]; destruct (find _ (given atoms)) as [[m' v']|].
        * destruct A as [-> A], B as [-> B]. apply P in A. apply G in A as (_ & _ & A).
          pose proof (drop_some _ _ _ distinct A) as D1. pose proof (drop_some _ _ _ distinct B) as D2. congruence.
        * destruct A as [-> A]. exfalso. apply B. apply P in A. apply G in A as (_ & _ & A). exact (name_of _ _ _ A).
        * destruct B as [-> B]. exfalso. apply A. apply name_of with v'. apply P, G. tauto.
        * reflexivity.
      + intros m H. cbn in H. clear - H Ht Hs. destruct Ht as [-> | ->], Hs as [-> | ->];
          repeat (destruct H as [<-|H]; [cbn; intuition discriminate|]); destruct H.
      + exact NP.
      + apply picks_true. intros m v H. apply P in H. now apply G in H.
      + exact I.
  Qed.
End Line.
