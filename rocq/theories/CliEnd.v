(** Proofs for C151: one command; how lines are read. *)
Require Import String Ascii List Arith Bool Lia.
From Verif Require Import Base CliModel CliSpec CliProofs.
Import ListNotations.
Open Scope string_scope.

(** * Flags for help have no value *)

Definition helps (n : string) : Prop := n = "-h" \/ n = "--help".

Definition sound_options (l : list optspec) : Prop :=
  incl usage_flags l /\ forall o, In o l -> helps (o_name o) -> o_arg o = false.

Lemma sound_start : sound_options (doc_options ++ usage_flags).
Proof.
  split; [intros x H; apply in_or_app; now right|].
  intros o H [N|N]; cbn in H; repeat (destruct H as [<-|H]; [cbn in *; congruence|]); destruct H.
Qed.

Lemma sound_app l o : sound_options l -> (helps (o_name o) -> o_arg o = false) -> sound_options (l ++ [o]).
Proof.
  intros [A B] H. split; [intros x X; apply in_or_app; left; now apply A|].
  intros x X N. apply in_app_iff in X as [X|[<-|[]]]; [now apply B|now apply H].
Qed.

Lemma partition_dashes w : String.prefix "--" w = true -> exists t, fst (partition_eq w) = "--" ++ t.
Proof.
  intro H. destruct w as [|c1 w]; [discriminate H|]. cbn [String.prefix] in H.
  destruct (ascii_dec "-" c1) as [<-|]; [|discriminate H]. destruct w as [|c2 w]; [discriminate H|].
  cbn [String.prefix] in H. destruct (ascii_dec "-" c2) as [<-|]; [|discriminate H].
  cbn [partition_eq Ascii.eqb Bool.eqb]. destruct (partition_eq w) as [a b]. exists a. reflexivity.
Qed.

Lemma parse_long_sound options w o a nx : sound_options options -> String.prefix "--" w = true ->
  parse_long options w = Some (o, a, nx) ->
  sound_options o /\ (forall n v, In (AOption n v) a -> helps n -> v = VBool true) /\ (forall n, nx = Some n -> ~ helps n).
Proof.
  intros S D H. unfold parse_long in H. destruct (partition_dashes w D) as [t T].
  destruct (partition_eq w) as [long v]. cbn [fst] in T.
  set (ex := filter (fun o0 => match o_long o0 with Some n => String.eqb n long | None => false end) options) in *.
  set (pr := filter (fun o0 => match o_long o0 with Some n => String.prefix long n | None => false end) options) in *.
  assert (N1 : long <> "-h") by (subst long; discriminate).
  assert (N2 : ex = [] -> long <> "--help").
  { intros E X. assert (Y : In {| o_short := None; o_long := Some "--help"; o_arg := false |} ex).
    { apply filter_In. split; [apply S; cbn; auto|]. cbn. rewrite X. reflexivity. }
    rewrite E in Y. destruct Y. }
  assert (M : forall o0, In o0 (match ex with [] => pr | _ => ex end) -> In o0 options).
  { intros o0 X. destruct ex as [|e1 ex'] eqn:EX.
    - unfold pr in X. now apply filter_In in X.
    - rewrite <- EX in X. unfold ex in X. now apply filter_In in X. }
  destruct (match ex with [] => pr | _ => ex end) as [|s [|s2 tl]] eqn:E.
  - assert (EX : ex = []) by (destruct ex; [reflexivity|discriminate]). specialize (N2 EX).
    assert (NH : ~ helps long) by (intros [X|X]; contradiction).
    destruct v as [v|]; injection H as <- <- <-; (split; [|split; [|discriminate]]).
    + apply sound_app; [exact S|]. cbn. intro X. contradiction.
    + intros n x [X|[]] Hn. injection X as <- <-. contradiction.
    + apply sound_app; [exact S|]. reflexivity.
    + intros n x [X|[]] Hn. now injection X as <- <-.
  - assert (Hs : In s options) by (apply M; now left).
    destruct v as [v|]; destruct (o_arg s) eqn:A; try discriminate; injection H as <- <- <-; (split; [exact S|split]).
    + intros n x [X|[]] Hn. injection X as <- <-. pose proof (proj2 S s Hs Hn). congruence.
    + discriminate.
    + intros n x [].
    + intros n X Hn. injection X as <-. pose proof (proj2 S s Hs Hn). congruence.
    + intros n x [X|[]] Hn. now injection X as <- <-.
    + discriminate.
  - destruct v; discriminate.
Qed.

Lemma parse_shorts_sound : forall letters options o a nx, sound_options options ->
  parse_shorts options letters = Some (o, a, nx) ->
  sound_options o /\ (forall n v, In (AOption n v) a -> helps n -> v = VBool true) /\ (forall n, nx = Some n -> ~ helps n).
Proof.
  induction letters as [|c letters IH]; intros options o a nx S H; cbn [parse_shorts] in H.
  - injection H as <- <- <-. split; [exact S|]. split; [intros n v []|discriminate].
  - set (fl := filter _ options) in H. assert (M : forall s, In s fl -> In s options).
    { intros s X. unfold fl in X. now apply filter_In in X. }
    destruct fl as [|s [|s2 t]]; [| |discriminate].
    + destruct (parse_shorts _ letters) as [[[o1 a1] n1]|] eqn:E; [|discriminate]. injection H as <- <- <-.
      apply IH in E as (A & B & C); [|apply sound_app; [exact S|reflexivity]].
      split; [exact A|]. split; [|exact C]. intros n v [X|X] Hn; [now injection X as <- <-|eauto].
    + assert (Hs : In s options) by (apply M; now left). destruct (o_arg s) eqn:A.
      * destruct letters as [|c2 letters]; injection H as <- <- <-; (split; [exact S|split]).
        -- intros n v [].
        -- intros n X Hn. injection X as <-. pose proof (proj2 S s Hs Hn). congruence.
        -- intros n v [X|[]] Hn. injection X as <- <-. pose proof (proj2 S s Hs Hn). congruence.
        -- discriminate.
      * destruct (parse_shorts _ letters) as [[[o1 a1] n1]|] eqn:E; [|discriminate]. injection H as <- <- <-.
        apply IH in E as (A1 & B & C); [|exact S].
        split; [exact A1|]. split; [|exact C]. intros n v [X|X] Hn; [now injection X as <- <-|eauto].
Qed.

Lemma help_true : forall argv options next atoms, sound_options options -> (forall n, next = Some n -> ~ helps n) ->
  parse_argv options next argv = Some atoms -> forall n v, In (AOption n v) atoms -> helps n -> v = VBool true.
Proof.
  induction argv as [|u argv IH]; intros options next atoms S N H n v I Hn.
  - cbn in H. destruct next; [discriminate|]. injection H as <-. destruct I.
  - cbn [parse_argv] in H. destruct next as [m|].
    + destruct (parse_argv options None argv) as [r|] eqn:E; [|discriminate]. injection H as <-.
      destruct I as [I|I]; [injection I as -> <-; destruct (N n eq_refl Hn)|].
      refine (IH _ _ _ S _ E n v I Hn). discriminate.
    + destruct (String.eqb u "--").
      * injection H as <-. destruct I as [I|I]; [discriminate|]. apply in_map_iff in I as (x & X & _). discriminate.
      * destruct (String.prefix "--" u) eqn:D.
        -- destruct (parse_long options u) as [[[o a] nx]|] eqn:E; [|discriminate].
           destruct (parse_argv o nx argv) as [r|] eqn:E2; [|discriminate]. injection H as <-.
           destruct (parse_long_sound _ _ _ _ _ S D E) as (A & B & C).
           apply in_app_iff in I as [I|I]; [eauto|]. exact (IH _ _ _ A C E2 n v I Hn).
        -- assert (X : option_map (cons (AWord u)) (parse_argv options None argv) = Some atoms -> v = VBool true).
           { destruct (parse_argv options None argv) as [r|] eqn:E; [|discriminate]. intro Y. injection Y as <-.
             destruct I as [I|I]; [discriminate|]. refine (IH _ _ _ S _ E n v I Hn). discriminate. }
           destruct u as [|c u]; [exact (X H)|].
           destruct (Ascii.eqb_spec c "-"%char) as [->|D2].
           ++ destruct u as [|c2 u]; [exact (X H)|].
              destruct (parse_shorts options (String c2 u)) as [[[o a] nx]|] eqn:E; [|discriminate].
              destruct (parse_argv o nx argv) as [r|] eqn:E2; [|discriminate]. injection H as <-.
              destruct (parse_shorts_sound _ _ _ _ _ S E) as (A & B & C).
              apply in_app_iff in I as [I|I]; [eauto|]. exact (IH _ _ _ A C E2 n v I Hn).
           ++ apply X. destruct c as [[] [] [] [] [] [] [] []]; try exact H. exfalso. now apply D2.
Qed.

Lemma take_option_In n left v r : take_option n left = Some (v, r) -> In (AOption n v) left.
Proof.
  revert r. induction left as [|[m w|u] left IH]; intros r H; cbn in H; [discriminate| |].
  - destruct (String.eqb_spec m n) as [->|D]; [injection H as -> _; now left|].
    destruct (take_option n left) as [[x y]|]; [|discriminate]. cbn in H. injection H as -> _. right. eauto.
  - destruct (take_option n left) as [[x y]|]; [|discriminate]. cbn in H. injection H as -> _. right. eauto.
Qed.

(** * One command *)

Lemma all_collects left l lf x c0 lf' c : all_of left [] l lf (x :: c0) = (true, lf', c) ->
  exists new, c = x :: new /\ forall m v, In (m, v) new -> In (m, v) c0 \/ In m (flat_map commands_in l) \/ In m (flat_map others_in l).
Proof.
  revert lf c0. induction l as [|p l IH]; intros lf c0 H; cbn [all_of] in H.
  - injection H as _ <-. exists c0. auto.
  - pose proof (matches_collects p lf (x :: c0)) as (new & E & F).
    destruct (matches p lf (x :: c0)) as [[b l1] c1]. cbn [snd] in E. subst c1. destruct b; [|discriminate].
    cbn [app] in H. apply IH in H as (new' & -> & G). exists new'. split; [reflexivity|]. intros m v I.
    cbn [flat_map]. rewrite !in_app_iff. destruct (G m v I) as [K|[K|K]]; [|tauto|tauto].
    apply in_app_iff in K as [K|K]; [tauto|]. destruct (F m v K) as [[K1 _]|K1]; tauto.
Qed.

Definition one_line (left : list atom) (c : list (string * value)) : Prop :=
  exists k r new, take_word left = Some (k, r) /\ c = (k, VBool true) :: new /\ In k run_dict /\
    forall m v, In (m, v) new -> ~ In m run_dict.

Lemma command_line n rest left lf c : In n run_dict ->
  (forall m, In m (flat_map commands_in rest) \/ In m (flat_map others_in rest) -> ~ In m run_dict) ->
  matches (PRequired (PCommand n :: rest)) left [] = (true, lf, c) -> one_line left c.
Proof.
  intros I D H. rewrite matches_required in H. cbn [all_of matches] in H.
  destruct (take_word left) as [[w r]|] eqn:T; [|discriminate]. destruct (String.eqb_spec w n) as [->|]; [|discriminate].
  cbn [app] in H. apply all_collects in H as (new & -> & G). exists n, r, new.
  split; [first [reflexivity|exact T]|]. split; [reflexivity|]. split; [exact I|].
  intros m v X. destruct (G m v X) as [[]|K]. now apply D.
Qed.

Lemma stats_line rest left lf c :
  (forall m, In m (flat_map commands_in rest) \/ In m (flat_map others_in rest) -> ~ In m run_dict) ->
  matches (PRequired (PRequired [PEither [PCommand "stats"; PCommand "statistics"]] :: rest)) left [] = (true, lf, c) ->
  one_line left c.
Proof.
  intros D H. rewrite matches_required in H. cbn [all_of] in H. rewrite matches_required in H. cbn [all_of] in H.
  rewrite matches_either in H.
  destruct (each_of left [] [PCommand "stats"; PCommand "statistics"] None) as [o|] eqn:E; [|discriminate].
  apply either_choice in E as [E|(p & Hp & M & B)]; [discriminate|]. destruct o as [[b l1] c1]. cbn in B. subst b.
  assert (X : exists k r, In k run_dict /\ take_word left = Some (k, r) /\ c1 = [(k, VBool true)]).
  { destruct Hp as [<-|[<-|[]]]; cbn [matches] in M; destruct (take_word left) as [[w r]|]; try discriminate;
      [destruct (String.eqb_spec w "stats") as [->|]|destruct (String.eqb_spec w "statistics") as [->|]]; try discriminate;
      injection M as <- <-; do 2 eexists; (split; [|split; [reflexivity|reflexivity]]); cbn; auto 12. }
  destruct X as (k & r & X1 & X2 & ->). apply all_collects in H as (new & -> & G). exists k, r, new.
  split; [exact X2|]. split; [reflexivity|]. split; [exact X1|]. intros m v I. destruct (G m v I) as [[]|K]. now apply D.
Qed.

Lemma not_commands l : forallb (fun m => negb (existsb (String.eqb m) run_dict)) l = true -> forall m, In m l -> ~ In m run_dict.
Proof.
  intros H m I X. rewrite forallb_forall in H. specialize (H m I). apply negb_true_iff in H.
  assert (Y : existsb (String.eqb m) run_dict = true) by (apply existsb_exists; exists m; split; [exact X|apply String.eqb_refl]).
  congruence.
Qed.

Lemma usage_one argv atoms lf c : parse_argv (doc_options ++ usage_flags) None argv = Some atoms ->
  has_option ["-h"; "--help"] atoms = false ->
  matches (PRequired [PEither usage_lines]) atoms [] = (true, lf, c) -> one_line atoms c.
Proof.
  intros HP HH H. rewrite matches_required in H. cbn [all_of] in H. rewrite matches_either in H.
  destruct (each_of atoms [] usage_lines None) as [o|] eqn:E; [|discriminate].
  apply either_choice in E as [E|(p & Hp & M & B)]; [discriminate|]. destruct o as [[b l1] c1]. cbn in B. subst b.
  injection H as <- <-.
  assert (DC : forall rest, forallb (fun m => negb (existsb (String.eqb m) run_dict))
                 (flat_map commands_in rest ++ flat_map others_in rest) = true ->
              forall m, In m (flat_map commands_in rest) \/ In m (flat_map others_in rest) -> ~ In m run_dict).
  { intros rest K m X. apply (not_commands _ K). apply in_or_app. exact X. }
  unfold usage_lines in Hp.
  destruct Hp as [<-|Hp].
  { exfalso. rewrite matches_required in M. cbn [all_of] in M. rewrite matches_either in M.
    destruct (each_of atoms [] [POption "-h"; POption "--help"] None) as [o|] eqn:E; [|discriminate].
    apply either_choice in E as [E|(q & Hq & M2 & B)]; [discriminate|].
    assert (X : exists n v, helps n /\ In (AOption n v) atoms).
    { destruct Hq as [<-|[<-|[]]]; cbn [matches] in M2.
      - destruct (take_option "-h" atoms) as [[v r]|] eqn:T; [|subst o; discriminate]. exists "-h", v.
        split; [now left|]. exact (take_option_In _ _ _ _ T).
      - destruct (take_option "--help" atoms) as [[v r]|] eqn:T; [|subst o; discriminate]. exists "--help", v.
        split; [now right|]. exact (take_option_In _ _ _ _ T). }
    destruct X as (n & v & Hn & I).
    assert (V : v = VBool true) by (refine (help_true _ _ _ _ sound_start _ HP n v I Hn); discriminate). subst v.
    assert (Y : has_option ["-h"; "--help"] atoms = true).
    { apply existsb_exists. eexists. split; [exact I|]. cbn. destruct Hn as [-> | ->]; reflexivity. }
    congruence. }
  do 2 (destruct Hp as [<-|Hp]; [eapply command_line; [| |exact M]; [cbn; auto 20|apply DC; reflexivity]|]).
  destruct Hp as [<-|Hp]; [eapply command_line; [| |exact M]; [cbn; auto 20|apply DC; reflexivity]|].
  destruct Hp as [<-|Hp]; [eapply stats_line; [|exact M]; apply DC; reflexivity|].
  do 8 (destruct Hp as [<-|Hp]; [eapply command_line; [| |exact M]; [cbn; auto 20|apply DC; reflexivity]|]).
  destruct Hp.
Qed.

Lemma default_false k : In k run_dict -> arg defaults k = VBool false.
Proof. intro H. cbn in H. repeat (destruct H as [<-|H]; [reflexivity|]). destruct H. Qed.

Lemma set_default_other rd pd d k : k <> "--dir" -> k <> "-o" -> arg (set_default_options rd pd d) k = arg d k.
Proof.
  intros A B. unfold set_default_options.
  assert (X : forall d0 n v, n <> k -> arg (d0 ++ [(n, v)])%list k = arg d0 k).
  { intros d0 n v N. rewrite arg_app. cbn [existsb fst]. apply String.eqb_neq in N. now rewrite N. }
  destruct (truthy (arg d "--dir")); destruct (truthy (arg _ "-o")); rewrite ?X by congruence; reflexivity.
Qed.

Lemma one_line_arg left c k' : one_line left c -> In k' run_dict ->
  exists k r, take_word left = Some (k, r) /\ In k run_dict /\
    arg (defaults ++ c)%list k' = VBool (String.eqb k' k).
Proof.
  intros (k & r & new & T & -> & I & D) K. exists k, r. split; [exact T|]. split; [exact I|].
  rewrite arg_app. assert (A : existsb (fun x : string * value => String.eqb (fst x) k') new = false).
  { destruct (existsb _ new) eqn:X; [|reflexivity]. apply existsb_names in X. apply in_map_iff in X as ([m v] & <- & X).
    destruct (D m v X K). }
  cbn [existsb fst]. rewrite A, orb_false_r. destruct (String.eqb_spec k k') as [->|N].
  - cbn [arg]. rewrite A, !String.eqb_refl. reflexivity.
  - rewrite (default_false k' K). destruct (String.eqb_spec k' k); [congruence|reflexivity].
Qed.

Lemma Runs_inj a b a' b' : Runs a b = Runs a' b' -> a = a' /\ b = b'.
Proof. intro H. injection H as -> ->. auto. Qed.

Lemma one_command rd pd argv c d : main_worker rd pd argv = Runs c d ->
  exists k, c = Some k /\ In k run_dict /\ In k argv /\ forall k', In k' run_dict -> (truthy (arg d k') = true <-> k' = k).
Proof.
  unfold main_worker, docopt. destruct (parse_argv (doc_options ++ usage_flags) None argv) as [atoms|] eqn:P; [|discriminate].
  destruct (has_option ["-h"; "--help"] atoms) eqn:HH; [discriminate|].
  destruct (has_option ["--version"] atoms); [discriminate|].
  destruct (matches (PRequired [PEither usage_lines]) atoms []) as [[b lf] col] eqn:M. destruct b; [|discriminate].
  destruct lf; [|discriminate]. intro H. apply Runs_inj in H as [<- <-]. pose proof (usage_one _ _ _ _ P HH M) as L.
  assert (L' := L). destruct L' as (k & r & new & T & _ & I & _). exists k.
  assert (X : forall k', In k' run_dict -> (truthy (arg (set_default_options rd pd (defaults ++ col)) k') = true <-> k' = k)).
  { intros k' K. rewrite set_default_other by (intros ->; cbn in K; intuition discriminate).
    destruct (one_line_arg _ _ _ L K) as (k2 & r2 & T2 & _ & E). rewrite T in T2. injection T2 as <- <-. rewrite E. cbn.
    apply String.eqb_eq. }
  split; [|split; [exact I|split; [|exact X]]].
  - assert (Y : forall l, incl l run_dict -> In k l ->
              find (fun k0 => truthy (arg (set_default_options rd pd (defaults ++ col)) k0)) l = Some k).
    { induction l as [|x l IH]; intros S J; [destruct J|]. cbn [find].
      destruct (truthy (arg (set_default_options rd pd (defaults ++ col)) x)) eqn:Tx.
      - apply X in Tx; [now subst x|]. apply S. now left.
      - apply IH; [intros z Hz; apply S; now right|]. destruct J as [->|J]; [|exact J].
        rewrite (proj2 (X k I) eq_refl) in Tx. discriminate. }
    apply Y; [apply incl_refl|exact I].
  - apply take_word_In in T. exact (words_of_argv _ _ _ _ P k T).
Qed.
