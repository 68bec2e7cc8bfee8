(** C150: what is thrown away when the results of a problem have changed. *)
Require Import String Ascii List Arith Lia Bool.
From Verif Require Import Base ClearModel ClearSpec ClearProofs.
Import ListNotations.
Open Scope string_scope.

(** C150 - if neither a directory on the way to the results nor one of an algorithm has a name in which the problem's
    name and an underscore occur: every cached dominance indicator goes, at whatever depth, the problem's own cache
    files go, and nothing else. *)
Theorem C150_clear_partial : forall dirs l,
  let problem := last dirs "" in
  plain problem -> no_wild problem -> proper (NDir l) ->
  (forall d, In d dirs -> ~ occurs (problem ++ "_") d) ->
  (forall x, dir_at (NDir l) [x] -> ~ occurs (problem ++ "_") x) ->
  exists n', clear_old_pdi_metrics dirs (NDir l) = (n', true) /\
    (forall path bytes, file_at n' path bytes <->
       file_at (NDir l) path bytes /\ ~ ends_with pdi_suffix (last path "") /\
       ~ exists x, path = [x] /\ occurs (problem ++ "_") x) /\
    (forall path, dir_at n' path <-> dir_at (NDir l) path).
Proof.
  intros dirs l problem P N W HD HA. unfold clear_old_pdi_metrics.
  assert (FM : forall x, In x (first_matches dirs (NDir l)) <-> In x (map fst l) /\ occurs (problem ++ "_") x).
  { intro x. rewrite first_matches_spec by assumption. fold problem. split.
    - intros [A [B|(d & B & C)]]; [auto|]. destruct (HD d B C).
    - intros [A B]. auto. }
  destruct (remove_each_ok (map (fun x => [x]) (first_matches dirs (NDir l))) (NDir l)) as (n1 & R1 & F1 & D1 & P1).
  - now apply first_NoDup.
  - intros p H. apply in_map_iff in H as (x & <- & H). split; [discriminate|]. apply FM in H as [A B].
    destruct (names_entry _ _ A) as [[b|lm] E].
    + exists b. unfold file_at. cbn [at_path]. now rewrite E.
    + exfalso. apply (HA x); [|exact B]. exists lm. cbn [at_path]. now rewrite E.
  - rewrite R1. specialize (P1 W).
    destruct (remove_each_ok (second_matches n1) n1) as (n2 & R2 & F2 & D2 & _).
    + now apply second_NoDup.
    + intros p H. apply (second_In n1 p P1) in H as (A & B & _). auto.
    + exists n2. split; [exact R2|]. split; [|intro q; rewrite D2; apply D1].
      intros q c. rewrite F2, F1, (second_In n1 q P1). split.
      * intros (A & B & C). split; [exact C|]. assert (Q : q <> []) by (intros ->; discriminate). split.
        -- intro E. apply A. split; [exact Q|]. split; [|exact E]. exists c. apply F1. auto.
        -- intros (x & -> & E). apply B. apply in_map_iff. exists x. split; [reflexivity|]. apply FM.
           split; [|exact E]. unfold file_at in C. cbn [at_path] in C.
           destruct (entry x l) as [m|] eqn:Em; [|discriminate]. exact (entry_names _ _ _ Em).
      * intros (A & B & C). split; [intros (_ & _ & E); contradiction|]. split; [|exact A].
        intro H. apply in_map_iff in H as (x & <- & H). apply FM in H as [_ H]. apply C. eauto.
Qed.
Print Assumptions C150_clear_partial.

(** Precisely then it raises: a directory under the problem's whose whole path has a part in which the problem's name and
    an underscore occur. *)
Theorem C150_raises : forall dirs l,
  let problem := last dirs "" in
  plain problem -> no_wild problem -> proper (NDir l) ->
  (snd (clear_old_pdi_metrics dirs (NDir l)) = false <->
   exists x, dir_at (NDir l) [x] /\ exists d, In d (x :: dirs) /\ occurs (problem ++ "_") d).
Proof.
  intros dirs l problem P N W. split.
  - intro H.
    destruct (existsb (fun e => match snd e with NDir _ => true | NFile _ => false end &&
                        existsb (fun y => String.eqb y (fst e)) (first_matches dirs (NDir l))) l) eqn:X.
    + apply existsb_exists in X as ([x m] & I & X). cbn [fst snd] in X. apply andb_true_iff in X as [X1 X2].
      destruct m as [|lm]; [discriminate|]. apply existsb_exists in X2 as (y & Y & E). apply String.eqb_eq in E. subst y.
      exists x. split.
      * exists lm. cbn [at_path]. rewrite (In_entry x (NDir lm) l); [reflexivity|exact (W [] l eq_refl)|exact I].
      * apply first_matches_spec in Y as [_ [Y|(d & Y1 & Y2)]]; [| |exact P|exact N].
        -- exists x. split; [now left|exact Y].
        -- exists d. split; [now right|exact Y2].
    + exfalso. unfold clear_old_pdi_metrics in H.
      destruct (remove_each_ok (map (fun x => [x]) (first_matches dirs (NDir l))) (NDir l)) as (n1 & R1 & F1 & D1 & P1).
      * now apply first_NoDup.
      * intros p Hp. apply in_map_iff in Hp as (x & <- & Hp). split; [discriminate|].
        pose proof Hp as A. apply first_matches_spec in A as [A _]; [|exact P|exact N].
        destruct (names_entry _ _ A) as [[b|lm] E]; [exists b; unfold file_at; cbn [at_path]; now rewrite E|].
        exfalso. enough (existsb (fun e => match snd e with NDir _ => true | NFile _ => false end &&
                        existsb (fun y => String.eqb y (fst e)) (first_matches dirs (NDir l))) l = true) by congruence.
        apply existsb_exists. exists (x, NDir lm). split; [now apply entry_In|]. cbn [fst snd andb].
        apply existsb_exists. exists x. split; [exact Hp|apply String.eqb_refl].
      * rewrite R1 in H.
        destruct (remove_each_ok (second_matches n1) n1) as (n2 & R2 & _).
        -- now apply second_NoDup, P1.
        -- intros p Hp. apply (second_In n1 p (P1 W)) in Hp as (A & B & _). auto.
        -- rewrite R2 in H. discriminate.
  - intros (x & D & d & I & O). unfold clear_old_pdi_metrics.
    assert (Hx : In x (first_matches dirs (NDir l))).
    { apply first_matches_spec; [exact P|exact N|]. fold problem. split.
      - destruct D as [lm D]. cbn [at_path] in D. destruct (entry x l) as [m|] eqn:E; [|discriminate].
        exact (entry_names _ _ _ E).
      - destruct I as [->|I]; [now left|right; eauto]. }
    pose proof (remove_each_dir (map (fun x => [x]) (first_matches dirs (NDir l))) (NDir l) [x]
                  (in_map (fun x => [x]) _ _ Hx) D) as R.
    destruct (remove_each _ _) as [n1 ok]. cbn [snd] in R. now subst ok.
Qed.
Print Assumptions C150_raises.

(** A results directory with one stored result and its cached indicator. *)
Definition some_results : node :=
  NDir [("ZDT1_nondominated", NFile "old");
        ("NSGAII", NDir [("r0", NDir [("100.pickle", NFile "result");
                                      ("100.pareto_dominance_indicator.pickle", NFile "old");
                                      ("100.extent.pickle", NFile "cached")])])].

(** With [--dir ZDT1_results] the exception comes before anything but the cache of non-dominated solutions is removed;
    the old indicator stays. *)
Theorem C150_results_dir_refuted :
  clear_old_pdi_metrics ["ZDT1_results"; "ZDT1"] some_results =
  (NDir [("NSGAII", NDir [("r0", NDir [("100.pickle", NFile "result");
                                      ("100.pareto_dominance_indicator.pickle", NFile "old");
                                      ("100.extent.pickle", NFile "cached")])])], false).
Proof. vm_compute. reflexivity. Qed.
Print Assumptions C150_results_dir_refuted.

(** With the usual directory it does its work; the hypotheses of C150_clear_partial hold. *)
Example C150_example :
  clear_old_pdi_metrics ["results"; "ZDT1"] some_results =
  (NDir [("NSGAII", NDir [("r0", NDir [("100.pickle", NFile "result"); ("100.extent.pickle", NFile "cached")])])], true).
Proof. vm_compute. reflexivity. Qed.

(** Decidable form of [occurs], for the example. *)
Lemma not_occurs w s : no_wild w -> glob (translate ("*" ++ w ++ "_*")) s = false -> ~ occurs (w ++ "_") s.
Proof. intros N H O. apply (glob_occurs w s N) in O. congruence. Qed.

Example C150_hypotheses :
  let dirs := ["results"; "ZDT1"] in
  plain (last dirs "") /\ no_wild (last dirs "") /\ proper some_results /\
  (forall d, In d dirs -> ~ occurs (last dirs "" ++ "_") d) /\
  (forall x, dir_at some_results [x] -> ~ occurs (last dirs "" ++ "_") x).
Proof.
  cbn [last].
  assert (NW : no_wild "ZDT1").
  { intro i. do 4 (destruct i as [|i]; [split; discriminate|]). cbn. destruct i; split; discriminate. }
  split; [|split; [exact NW|split; [|split]]].
  - intro i. do 4 (destruct i as [|i]; [discriminate|]). cbn. destruct i; discriminate.
  - intros q l H. unfold some_results in H.
    destruct q as [|x q]; [injection H as <-; repeat constructor; cbn; intuition discriminate|].
    cbn [at_path entry] in H.
    destruct (String.eqb x "ZDT1_nondominated"); [destruct q; discriminate|].
    destruct (String.eqb x "NSGAII"); [|discriminate].
    destruct q as [|y q]; [injection H as <-; repeat constructor; cbn; intuition discriminate|].
    cbn [at_path entry] in H. destruct (String.eqb y "r0"); [|discriminate].
    destruct q as [|z q]; [injection H as <-; repeat constructor; cbn; intuition discriminate|].
    cbn [at_path entry] in H.
    destruct (String.eqb z "100.pickle"); [destruct q; discriminate|].
    destruct (String.eqb z "100.pareto_dominance_indicator.pickle"); [destruct q; discriminate|].
    destruct (String.eqb z "100.extent.pickle"); [destruct q; discriminate|discriminate].
  - intros d [<-|[<-|[]]]; (apply not_occurs; [exact NW|reflexivity]).
  - intros x [l H]. cbn [at_path some_results entry] in H.
    destruct (String.eqb x "ZDT1_nondominated"); [discriminate|].
    destruct (String.eqb_spec x "NSGAII") as [->|D]; [|discriminate]. apply not_occurs; [exact NW|reflexivity].
Qed.
