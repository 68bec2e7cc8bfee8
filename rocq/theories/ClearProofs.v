(** Proofs for C150. *)
Require Import String Ascii List Arith Bool Lia.
From Verif Require Import Base ClearModel ClearSpec.
Import ListNotations.
Open Scope string_scope.

(** * Patterns *)

Lemma glob_star : forall p s, glob (Star :: p) s = true <-> exists a b, s = a ++ b /\ glob p b = true.
Proof.
  intros p s. induction s as [|c s IH].
  - cbn. rewrite orb_false_r. split.
    + intro H. exists "", "". auto.
    + intros (a & b & E & H). destruct a; [|discriminate]. cbn in E. subst b. exact H.
  - change (glob (Star :: p) (String c s)) with (glob p (String c s) || glob (Star :: p) s).
    rewrite orb_true_iff, IH. split.
    + intros [H|(a & b & -> & H)]; [exists "", (String c s)|exists (String c a), b]; auto.
    + intros (a & b & E & H). destruct a as [|d a]; cbn in E.
      * left. now subst b.
      * right. injection E as -> ->. exists a, b. auto.
Qed.

Lemma no_wild_tail c w : no_wild (String c w) -> c <> "*"%char /\ c <> "?"%char /\ no_wild w.
Proof.
  intro H. pose proof (H 0) as [A B]. cbn in A, B. repeat split; try congruence; pose proof (H (S i)) as [C D]; assumption.
Qed.

Lemma glob_lits : forall w p s, no_wild w ->
  (glob (translate w ++ p)%list s = true <-> exists b, s = w ++ b /\ glob p b = true).
Proof.
  induction w as [|c w IH]; intros p s N.
  - cbn. split; [intro H; now exists s|]. intros (b & -> & H). exact H.
  - apply no_wild_tail in N as (A & B & N). cbn [translate].
    apply Ascii.eqb_neq in A, B. rewrite A, B. cbn [app glob]. destruct s as [|d s].
    + split; [discriminate|]. intros (b & E & _). discriminate.
    + rewrite andb_true_iff, (IH p s N). rewrite Ascii.eqb_eq. split.
      * intros [-> (b & -> & H)]. exists b. auto.
      * intros (b & E & H). injection E as -> ->. split; [reflexivity|]. exists b. auto.
Qed.

Lemma translate_app : forall a b, translate (a ++ b) = (translate a ++ translate b)%list.
Proof. induction a as [|c a IH]; intro b; cbn; [reflexivity|now rewrite IH]. Qed.

Lemma append_assoc : forall a b c : string, (a ++ b) ++ c = a ++ b ++ c.
Proof. induction a as [|x a IH]; intros b c; cbn; [reflexivity|now rewrite IH]. Qed.

Lemma append_nil : forall a : string, a ++ "" = a.
Proof. induction a as [|x a IH]; cbn; [reflexivity|now rewrite IH]. Qed.

Lemma glob_rest : forall s, glob [Star] s = true.
Proof. intro s. apply glob_star. exists s, "". rewrite append_nil. auto. Qed.

Lemma glob_occurs : forall w s, no_wild w -> (glob (translate ("*" ++ w ++ "_*")) s = true <-> occurs (w ++ "_") s).
Proof.
  intros w s N. cbn [append translate]. cbn [Ascii.eqb Bool.eqb]. rewrite glob_star, translate_app. unfold occurs.
  change (translate "_*") with ([Lit "_"; Star])%list. split.
  - intros (a & b & -> & H). apply glob_lits in H as (r & -> & H); [|exact N].
    destruct r as [|d r]; cbn [glob] in H; [discriminate|]. apply andb_true_iff in H as [H _].
    apply Ascii.eqb_eq in H. subst d. exists a, r. now rewrite append_assoc.
  - intros (a & b & ->). exists a, ((w ++ "_") ++ b). split; [reflexivity|]. apply glob_lits; [exact N|].
    exists ("_" ++ b). rewrite append_assoc. split; [reflexivity|]. cbn [append glob].
    rewrite Ascii.eqb_refl. cbn [andb]. apply (glob_rest b).
Qed.

Lemma glob_ends : forall w s, no_wild w -> (glob (translate ("*" ++ w)) s = true <-> ends_with w s).
Proof.
  intros w s N. cbn [append translate]. cbn [Ascii.eqb Bool.eqb]. rewrite glob_star. unfold ends_with.
  rewrite <- (app_nil_r (translate w)). split.
  - intros (a & b & -> & H). apply glob_lits in H as (r & -> & H); [|exact N].
    destruct r; [|discriminate]. exists a. now rewrite append_nil.
  - intros (a & ->). exists a, w. split; [reflexivity|]. apply glob_lits; [exact N|]. exists "".
    rewrite append_nil. auto.
Qed.

(** * Paths *)

Lemma plain_tail c w : plain (String c w) -> c <> "/"%char /\ plain w.
Proof. intro H. split; [pose proof (H 0) as A; cbn in A; congruence|]. intro i. exact (H (S i)). Qed.

Lemma prefix_component : forall v d r b, plain v -> d ++ String "/" r = v ++ b -> exists b', d = v ++ b'.
Proof.
  induction v as [|c v IH]; intros d r b P E.
  - exists d. reflexivity.
  - apply plain_tail in P as [A P]. destruct d as [|e d]; cbn in E; injection E as E1 E2; [congruence|].
    destruct (IH _ _ _ P E2) as [b' ->]. subst e. exists b'. reflexivity.
Qed.

Lemma occurs_component : forall v d r, plain v -> v <> "" ->
  (occurs v (d ++ String "/" r) <-> occurs v d \/ occurs v r).
Proof.
  intros v d r P N. split.
  - intros (a & b & E). revert d E. induction a as [|c a IH]; intros d E.
    + cbn in E. left. destruct (prefix_component _ _ _ _ P E) as [b' ->]. exists "", b'. reflexivity.
    + destruct d as [|e d]; cbn in E; injection E as E1 E2.
      * right. exists a, b. exact E2.
      * destruct (IH _ E2) as [(a' & b' & ->)|H]; [left|right; exact H]. subst e. exists (String c a'), b'. reflexivity.
  - intros [(a & b & ->)|(a & b & ->)].
    + exists a, (b ++ String "/" r). now rewrite !append_assoc.
    + exists (d ++ String "/" a), b. now rewrite append_assoc.
Qed.

Lemma occurs_path : forall v dirs x, plain v -> v <> "" ->
  (occurs v (path_str dirs x) <-> occurs v x \/ exists d, In d dirs /\ occurs v d).
Proof.
  intros v dirs x P N. induction dirs as [|d dirs IH].
  - cbn. split; [now left|]. intros [H|(d & [] & _)]. exact H.
  - change (path_str (d :: dirs) x) with (d ++ String "/" (path_str dirs x)).
    rewrite occurs_component, IH by assumption. cbn [In]. split.
    + intros [H|[H|(e & H1 & H2)]]; [right; exists d; auto|now left|right; exists e; auto].
    + intros [H|(e & [<-|H1] & H2)]; [now right; left|now left|right; right; exists e; auto].
Qed.

Lemma plain_under w : plain w -> plain (w ++ "_").
Proof.
  induction w as [|c w IH]; intros P i.
  - destruct i as [|i]; cbn; [discriminate|]. destruct i; discriminate.
  - apply plain_tail in P as [A P]. destruct i as [|i]; cbn; [congruence|]. apply IH. exact P.
Qed.

Lemma under_nonempty w : w ++ "_" <> "".
Proof. destruct w; discriminate. Qed.

Lemma first_matches_spec dirs l x : plain (last dirs "") -> no_wild (last dirs "") ->
  (In x (first_matches dirs (NDir l)) <->
   In x (map fst l) /\ (occurs (last dirs "" ++ "_") x \/ exists d, In d dirs /\ occurs (last dirs "" ++ "_") d)).
Proof.
  intros P N. cbn [first_matches]. rewrite filter_In, glob_occurs by exact N.
  rewrite occurs_path; [reflexivity|now apply plain_under|apply under_nonempty].
Qed.

(** * Removing files *)

Lemma entry_filter x y l :
  entry y (filter (fun e => negb (String.eqb x (fst e))) l) = if String.eqb x y then None else entry y l.
Proof.
  induction l as [|[z n] l IH]; cbn [filter entry fst].
  - now destruct (String.eqb x y).
  - destruct (String.eqb_spec x z) as [->|D]; cbn [negb].
    + rewrite IH. destruct (String.eqb_spec z y) as [->|D']; [reflexivity|].
      destruct (String.eqb_spec y z); [congruence|reflexivity].
    + cbn [entry]. rewrite IH. destruct (String.eqb_spec x y) as [->|D']; [|reflexivity].
      destruct (String.eqb_spec y z); [congruence|reflexivity].
Qed.

Lemma entry_map x m y l :
  entry y (map (fun e => if String.eqb x (fst e) then (fst e, m) else e) l) =
  match entry y l with Some n => Some (if String.eqb x y then m else n) | None => None end.
Proof.
  induction l as [|[z n] l IH]; cbn [map entry fst]; [reflexivity|].
  destruct (String.eqb_spec x z) as [->|D]; cbn [entry].
  - destruct (String.eqb_spec y z) as [->|D']; [now rewrite String.eqb_refl|exact IH].
  - destruct (String.eqb_spec y z) as [->|D']; [|exact IH].
    destruct (String.eqb_spec x z); [congruence|reflexivity].
Qed.

(** What removing one file does. *)
Definition without (gone : list string -> Prop) (n n' : node) : Prop :=
  (forall q c, file_at n' q c <-> ~ gone q /\ file_at n q c) /\
  (forall q, dir_at n' q <-> dir_at n q) /\
  (proper n -> proper n').

Lemma names_map x m (l : list (string * node)) :
  map fst (map (fun e => if String.eqb x (fst e) then (fst e, m) else e) l) = map fst l.
Proof. rewrite map_map. apply map_ext. intros [y k]. cbn. now destruct (String.eqb x y). Qed.

Lemma NoDup_filter_fst (f : string * node -> bool) l : NoDup (map fst l) -> NoDup (map fst (filter f l)).
Proof.
  induction l as [|e l IH]; intro H; cbn in *; [constructor|]. inversion H as [|? ? A B]; subst.
  destruct (f e); [|now apply IH]. cbn. constructor; [|now apply IH].
  intro C. apply A. apply in_map_iff in C as (e' & E & C). apply filter_In in C as [C _].
  rewrite <- E. now apply in_map.
Qed.

Lemma os_remove_ok : forall path n b, path <> [] -> file_at n path b ->
  exists n', os_remove path n = Some n' /\ without (eq path) n n'.
Proof.
  induction path as [|x path IH]; intros n b N F; [congruence|].
  unfold file_at in F. cbn [at_path] in F. destruct n as [|l]; [discriminate|].
  cbn [os_remove]. destruct (entry x l) as [m|] eqn:E; [|discriminate]. destruct path as [|y path].
  - cbn in F. injection F as ->. eexists. split; [reflexivity|].
    assert (A : forall z rest, at_path (NDir (filter (fun e => negb (String.eqb x (fst e))) l)) (z :: rest) =
                if String.eqb x z then None else at_path (NDir l) (z :: rest)).
    { intros z rest. cbn [at_path]. rewrite entry_filter. now destruct (String.eqb x z). }
    split; [|split].
    + intros q c. unfold file_at. destruct q as [|z q]; [cbn; split; [discriminate|intros [_ H]; discriminate]|].
      rewrite A. destruct (String.eqb_spec x z) as [<-|D].
      * split; [discriminate|]. intros [H1 H2]. exfalso. cbn [at_path] in H2. rewrite E in H2.
        destruct q as [|z' q]; [now apply H1|discriminate].
      * split; [intro H|intros [_ H]; exact H]. split; [congruence|exact H].
    + intro q. unfold dir_at. destruct q as [|z q]; [cbn; split; intros _; eauto|]. rewrite A.
      destruct (String.eqb_spec x z) as [<-|D]; [|reflexivity]. cbn [at_path]. rewrite E. split.
      * intros [l' H]. discriminate.
      * intros [l' H]. destruct q; discriminate.
    + intros W q l' H. destruct q as [|z q].
      * cbn in H. injection H as <-. apply NoDup_filter_fst. exact (W [] l eq_refl).
      * rewrite A in H. destruct (String.eqb x z); [discriminate|]. exact (W _ _ H).
  - destruct (IH m b) as (m' & R & (R1 & R2 & R3)); [discriminate|exact F|].
    destruct m as [bs|lm]; [discriminate|]. rewrite R. eexists. split; [reflexivity|].
    assert (A : forall z rest,
              at_path (NDir (map (fun e => if String.eqb x (fst e) then (fst e, m') else e) l)) (z :: rest) =
              if String.eqb x z then at_path m' rest else at_path (NDir l) (z :: rest)).
    { intros z rest. cbn [at_path]. rewrite entry_map. destruct (String.eqb_spec x z) as [<-|D].
      - now rewrite E.
      - now destruct (entry z l). }
    assert (A' : forall rest, at_path (NDir l) (x :: rest) = at_path (NDir lm) rest)
      by (intro rest; cbn [at_path]; now rewrite E).
    split; [|split].
    + intros q c. unfold file_at. destruct q as [|z q]; [cbn; split; [discriminate|intros [_ H]; discriminate]|].
      rewrite A. destruct (String.eqb_spec x z) as [<-|D].
      * rewrite A'. fold (file_at m' q c). rewrite R1. unfold file_at. split; intros [H1 H2]; (split; [|exact H2]); congruence.
      * split; [intro H|intros [_ H]; exact H]. split; [congruence|exact H].
    + intro q. unfold dir_at. destruct q as [|z q]; [cbn; split; intros _; eauto|]. rewrite A.
      destruct (String.eqb_spec x z) as [<-|D]; [|reflexivity]. rewrite A'. exact (R2 q).
    + intros W q l' H. destruct q as [|z q].
      * cbn in H. injection H as <-. rewrite names_map. exact (W [] l eq_refl).
      * rewrite A in H. destruct (String.eqb_spec x z) as [<-|D]; [|exact (W _ _ H)].
        refine (R3 _ q l' H). intros q' l'' H'. apply (W (x :: q')). now rewrite A'.
Qed.

Lemma os_remove_inv : forall path n n', os_remove path n = Some n' -> path <> [] /\ exists b, file_at n path b.
Proof.
  induction path as [|x path IH]; intros n n' H; [destruct n; discriminate|]. split; [discriminate|].
  cbn [os_remove] in H. destruct n as [|l]; [discriminate|]. unfold file_at. cbn [at_path].
  destruct (entry x l) as [m|] eqn:E; [|discriminate]. destruct path as [|y path].
  - destruct m as [b|]; [|discriminate]. exists b. reflexivity.
  - destruct m as [b|lm]; [destruct path; discriminate|].
    destruct (os_remove (y :: path) (NDir lm)) as [m'|] eqn:R; [|discriminate].
    destruct (IH _ _ R) as [_ [b F]]. exists b. exact F.
Qed.

Lemma without_iff g g' n n' : (forall q, g q <-> g' q) -> without g n n' -> without g' n n'.
Proof. intros H (A & B & C). split; [|split; assumption]. intros q c. rewrite A, H. reflexivity. Qed.

Lemma without_trans g g' n n' n'' : without g n n' -> without g' n' n'' -> without (fun q => g q \/ g' q) n n''.
Proof.
  intros (A1 & B1 & C1) (A2 & B2 & C2). split; [|split].
  - intros q c. rewrite A2, A1. tauto.
  - intro q. rewrite B2. apply B1.
  - auto.
Qed.

Lemma remove_each_ok : forall ps n, NoDup ps -> (forall p, In p ps -> p <> [] /\ exists b, file_at n p b) ->
  exists n', remove_each ps n = (n', true) /\ without (fun q => In q ps) n n'.
Proof.
  induction ps as [|p ps IH]; intros n N F.
  - exists n. split; [reflexivity|]. split; [|split; [reflexivity|auto]]. intros q c. cbn. tauto.
  - inversion N as [|? ? N1 N2]; subst. destruct (F p (or_introl eq_refl)) as [Np [b Fb]].
    destruct (os_remove_ok _ _ _ Np Fb) as (n1 & R & W). cbn [remove_each]. rewrite R.
    destruct (IH n1 N2) as (n' & R' & W').
    + intros q Hq. destruct (F q (or_intror Hq)) as [Nq [c Fc]]. split; [exact Nq|]. exists c.
      apply (proj1 W). split; [|exact Fc]. intros ->. contradiction.
    + exists n'. split; [exact R'|]. eapply without_iff; [|exact (without_trans _ _ _ _ _ W W')].
      intro q. cbn. reflexivity.
Qed.

Lemma remove_each_dir : forall ps n p, In p ps -> dir_at n p -> snd (remove_each ps n) = false.
Proof.
  induction ps as [|q ps IH]; intros n p I D; [destruct I|]. cbn [remove_each].
  destruct (os_remove q n) as [n1|] eqn:R; [|reflexivity].
  destruct (os_remove_inv _ _ _ R) as [Nq [b F]].
  destruct (os_remove_ok _ _ _ Nq F) as (n1' & R' & W). rewrite R in R'. injection R' as <-.
  destruct I as [<-|I].
  - destruct D as [l D]. unfold file_at in F. rewrite D in F. discriminate.
  - apply (IH n1 p I). apply W. exact D.
Qed.

(** * The walk *)

Fixpoint node_ind2 (P : node -> Prop) (HF : forall b, P (NFile b))
    (HD : forall l, (forall x m, In (x, m) l -> P m) -> P (NDir l)) (n : node) : P n :=
  match n with
  | NFile b => HF b
  | NDir l => HD l ((fix go (l : list (string * node)) : forall x m, In (x, m) l -> P m :=
      match l return forall x m, In (x, m) l -> P m with
      | [] => fun x m (H : False) => match H with end
      | e :: l' => fun x m (H : e = (x, m) \/ In (x, m) l') =>
          match H with
          | or_introl E => match E in _ = e' return P (snd e') with eq_refl => node_ind2 P HF HD (snd e) end
          | or_intror H' => go l' x m H'
          end
      end) l)
  end.

Lemma entry_In x m l : entry x l = Some m -> In (x, m) l.
Proof.
  induction l as [|[y n] l IH]; cbn; [discriminate|]. destruct (String.eqb_spec x y) as [->|D].
  - intro H. injection H as ->. now left.
  - intro H. right. now apply IH.
Qed.

Lemma In_entry x m l : NoDup (map fst l) -> In (x, m) l -> entry x l = Some m.
Proof.
  induction l as [|[y n] l IH]; intros N H; [destruct H|]. cbn in N. inversion N as [|? ? A B]; subst. cbn.
  destruct H as [H|H].
  - injection H as -> ->. now rewrite String.eqb_refl.
  - destruct (String.eqb_spec x y) as [->|D]; [|now apply IH]. exfalso. apply A.
    change y with (fst (y, m)). now apply in_map.
Qed.

Lemma proper_sub l x m : proper (NDir l) -> In (x, m) l -> proper m.
Proof.
  intros W H q l' E. apply (W (x :: q)). cbn [at_path].
  rewrite (In_entry x m l); [exact E| |exact H]. exact (W [] l eq_refl).
Qed.

(** All files, by path. *)
Definition walked (n : node) : list (list string) :=
  flat_map (fun rf => map (fun f => (fst rf ++ [f])%list) (snd rf)) (os_walk n).

Lemma walked_dir l : walked (NDir l) =
  (map (fun f => [f]) (flat_map (fun e => match snd e with NFile _ => [fst e] | NDir _ => [] end) l) ++
   flat_map (fun e => map (cons (fst e)) (walked (snd e))) l)%list.
Proof.
  unfold walked. cbn [os_walk flat_map fst snd app]. f_equal.
  induction l as [|e l IH]; [reflexivity|]. cbn [flat_map]. rewrite flat_map_app, IH. f_equal.
  induction (os_walk (snd e)) as [|rf w IHw]; [reflexivity|]. cbn [map flat_map fst snd].
  rewrite map_app, IHw. f_equal. rewrite map_map. reflexivity.
Qed.

Lemma walked_In : forall n, proper n -> forall p, In p (walked n) <-> p <> [] /\ exists b, file_at n p b.
Proof.
  induction n as [b|l IH] using node_ind2; intros W p.
  - cbn. split; [intros []|]. intros [N [c F]]. destruct p; [congruence|discriminate].
  - rewrite walked_dir, in_app_iff, in_map_iff, in_flat_map. split.
    + intros [(f & <- & H)|([x m] & H & I)].
      * split; [discriminate|]. apply in_flat_map in H as ([x m] & H & I). cbn in I.
        destruct m as [b|]; [|destruct I]. destruct I as [<-|[]]. exists b. unfold file_at. cbn [at_path].
        rewrite (In_entry x (NFile b) l); [reflexivity|exact (W [] l eq_refl)|exact H].
      * cbn [fst snd] in I. apply in_map_iff in I as (q & <- & I). split; [discriminate|].
        apply (IH x m H (proper_sub _ _ _ W H)) in I as [_ [b F]]. exists b. unfold file_at. cbn [at_path].
        rewrite (In_entry x m l); [exact F|exact (W [] l eq_refl)|exact H].
    + intros [N [b F]]. destruct p as [|x p]; [congruence|]. unfold file_at in F. cbn [at_path] in F.
      destruct (entry x l) as [m|] eqn:E; [|discriminate]. apply entry_In in E. destruct p as [|y p].
      * left. exists x. split; [reflexivity|]. apply in_flat_map. exists (x, m). split; [exact E|].
        cbn in F. injection F as ->. now left.
      * right. exists (x, m). split; [exact E|]. cbn [fst snd]. apply in_map.
        apply (IH x m E (proper_sub _ _ _ W E)). split; [discriminate|]. exists b. exact F.
Qed.

Lemma NoDup_map_inj {A B} (f : A -> B) l : (forall x y, f x = f y -> x = y) -> NoDup l -> NoDup (map f l).
Proof.
  intros I N. induction N as [|x l A' N IH]; cbn; constructor; [|exact IH].
  rewrite in_map_iff. intros (y & E & H). apply I in E. subst y. contradiction.
Qed.

Lemma NoDup_files l : NoDup (map (@fst string node) l) ->
  NoDup (flat_map (fun e => match snd e with NFile _ => [fst e] | NDir _ => [] end) l).
Proof.
  induction l as [|[x m] l IH]; intro N; cbn in *; [constructor|]. inversion N as [|? ? A B]; subst.
  destruct m; cbn; [|now apply IH]. constructor; [|now apply IH]. rewrite in_flat_map. intros ([y k] & H & I).
  cbn in I. destruct k; [|destruct I]. destruct I as [<-|[]]. apply A. change y with (fst (y, NFile bytes0)). now apply in_map.
Qed.

Lemma walked_nonempty n p : In p (walked n) -> p <> [].
Proof.
  unfold walked. rewrite in_flat_map. intros ([r f] & _ & H). apply in_map_iff in H as (x & <- & _). cbn. now destruct r.
Qed.

Lemma walked_NoDup : forall n, proper n -> NoDup (walked n).
Proof.
  induction n as [b|l IH] using node_ind2; intro W; [constructor|]. rewrite walked_dir.
  pose proof (W [] l eq_refl) as N. apply NoDup_app_disj.
  - apply NoDup_map_inj; [congruence|]. now apply NoDup_files.
  - assert (IH' : forall x m, In (x, m) l -> NoDup (walked m)) by (intros x m H; exact (IH x m H (proper_sub _ _ _ W H))).
    clear IH W. induction l as [|[x m] l IHl]; [constructor|]. cbn in N. inversion N as [|? ? A B]; subst.
    cbn [flat_map fst snd]. apply NoDup_app_disj.
    + apply NoDup_map_inj; [congruence|]. apply (IH' x m). now left.
    + apply IHl; [exact B|]. intros y k H. apply (IH' y k). now right.
    + intros p H1 H2. apply in_map_iff in H1 as (q & <- & _). apply in_flat_map in H2 as ([y k] & H2 & I).
      cbn [fst snd] in I. apply in_map_iff in I as (q' & E & _). injection E as -> ->. apply A.
      change x with (fst (x, k)). now apply in_map.
  - intros p H1 H2. apply in_map_iff in H1 as (f & <- & _). apply in_flat_map in H2 as ([y k] & _ & I).
    cbn [fst snd] in I. apply in_map_iff in I as (q & E & I). apply walked_nonempty in I. injection E as _ E. congruence.
Qed.


Lemma last_snoc {A} (l : list A) x d : last (l ++ [x])%list d = x.
Proof. induction l as [|a l IH]; [reflexivity|]. cbn. destruct l; cbn in *; [reflexivity|exact IH]. Qed.

Lemma second_filter n : second_matches n =
  filter (fun p => glob (translate ("*" ++ pdi_suffix)) (last p "")) (walked n).
Proof.
  unfold second_matches, walked. induction (os_walk n) as [|[r fs] w IH]; [reflexivity|]. cbn [flat_map].
  rewrite filter_app, IH. f_equal. cbn [fst snd]. clear. induction fs as [|f fs IH]; [reflexivity|].
  cbn [filter map]. rewrite last_snoc. change ("*" ++ pdi_suffix) with "*.pareto_dominance_indicator.pickle".
  destruct (glob _ f); cbn [map]; now rewrite IH.
Qed.

Lemma suffix_no_wild : no_wild pdi_suffix.
Proof.
  intro i. unfold pdi_suffix. do 35 (destruct i as [|i]; [split; discriminate|]).
  cbn. destruct i; split; discriminate.
Qed.

Lemma second_In n p : proper n ->
  (In p (second_matches n) <-> p <> [] /\ (exists b, file_at n p b) /\ ends_with pdi_suffix (last p "")).
Proof.
  intro W. rewrite second_filter, filter_In, walked_In, glob_ends by (exact suffix_no_wild || exact W). tauto.
Qed.

Lemma second_NoDup n : proper n -> NoDup (second_matches n).
Proof. intro W. rewrite second_filter. apply NoDup_filter. now apply walked_NoDup. Qed.

(** * The whole *)

Lemma first_NoDup dirs n : proper n -> NoDup (map (fun x => [x]) (first_matches dirs n)).
Proof.
  intro W. apply NoDup_map_inj; [congruence|]. destruct n as [|l]; [constructor|]. cbn [first_matches].
  apply NoDup_filter. exact (W [] l eq_refl).
Qed.

Lemma names_entry l x : In x (map (@fst string node) l) -> exists m, entry x l = Some m.
Proof.
  induction l as [|[y n] l IH]; intro H; [destruct H|]. cbn in *. destruct (String.eqb_spec x y) as [->|D]; [eauto|].
  destruct H as [H|H]; [congruence|]. now apply IH.
Qed.

Lemma entry_names l x m : entry x l = Some m -> In x (map (@fst string node) l).
Proof. intro H. apply entry_In in H. change x with (fst (x, m)). now apply in_map. Qed.
