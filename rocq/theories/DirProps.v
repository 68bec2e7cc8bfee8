(** C142, C143: the directory walker. *)
Require Import String Ascii List Arith NArith ZArith Lia Bool.
From Verif Require Import PyStr FsModel FsSpec FsProofs FsExtract DirModel DirSpec DirProofs DirClear.
Import ListNotations.
Open Scope string_scope.

(** C142 - a crash of the conversion at any moment, or an exception, loses no document: each JSON file is either
    unchanged or gone with its complete pickle beside it, and no other file is touched. *)
Theorem C142_crash_loses_nothing : forall V (json_load : string -> option V) pickle listing s root k,
  some_order listing ->
  let s' := killed_after s (convert V json_load pickle listing s root) k in
  (forall p p' b, json_file s root p p' b ->
    lookup s' p = Some (File b) \/
    lookup s' p = None /\ exists v, json_load b = Some v /\ lookup s' p' = Some (File (pickle v))) /\
  (forall q, apart_from_json s root q -> lookup s' q = lookup s q).
Proof. intros V json_load pickle listing s root k Hl. exact (convert_safe V json_load pickle listing Hl s root k). Qed.
Print Assumptions C142_crash_loses_nothing.

(** The tool ends without an exception exactly when all JSON files can be read and no directory has the name of a
    pickle to be written; then every JSON file has become a pickle. *)
Theorem C142_normal_end : forall V (json_load : string -> option V) pickle listing s root,
  some_order listing -> tree s -> root <> [] ->
  let run := convert V json_load pickle listing s root in
  (snd run = None <->
   forall p p' b, json_file s root p p' b -> json_load b <> None /\ lookup s p' <> Some Dir) /\
  (snd run = None ->
   forall p p' b, json_file s root p p' b -> exists v, json_load b = Some v /\
     lookup (final s run) p = None /\ lookup (final s run) p' = Some (File (pickle v))) /\
  (forall q, apart_from_json s root q -> lookup (final s run) q = lookup s q).
Proof.
  intros V json_load pickle listing s root Hl T Hr run.
  pose proof (tree_housed s root Hr T) as Hh.
  pose proof (convert_normal V json_load pickle listing Hl s root Hh) as N. fold run in N.
  split; [split|split; [exact N|]].
  - intros He p p' b J. destruct (N He p p' b J) as (v & Jv & _ & F). split; [congruence|]. intro D.
    destruct (convert_flat V json_load pickle listing Hl s root) as (W & E & _). fold run in E.
    apply (each_dir_same _ (conv_dirs V json_load pickle) W s p') in D. rewrite <- E in D. unfold final in F. congruence.
  - intro H. exact (convert_ends V json_load pickle listing Hl s root Hh H).
  - intros q H. rewrite final_killed. now apply convert_safe.
Qed.
Print Assumptions C142_normal_end.

(** Running the tool again after a crash completes the work: the files are then the same as without the crash. *)
Theorem C142_rerun_completes : forall V (json_load : string -> option V) pickle listing listing' s root k,
  some_order listing -> some_order listing' -> tree s -> root <> [] ->
  (forall p p' b, json_file s root p p' b -> json_load b <> None /\ lookup s p' <> Some Dir) ->
  let s1 := killed_after s (convert V json_load pickle listing s root) k in
  snd (convert V json_load pickle listing' s1 root) = None /\
  forall q, lookup (final s1 (convert V json_load pickle listing' s1 root)) q =
            lookup (final s (convert V json_load pickle listing s root)) q.
Proof.
  intros V json_load pickle listing listing' s root k H1 H2 T Hr Hc.
  exact (rerun V json_load pickle listing listing' s root k H1 H2 (tree_housed s root Hr T) Hc).
Qed.
Print Assumptions C142_rerun_completes.

(** A listing in some order exists. *)
Definition plain_listing (s : fs) (d : path) : list string := nodup string_dec (children s d).

Lemma plain_order : some_order plain_listing.
Proof.
  intros s d. split; [apply NoDup_nodup|]. intro n. unfold plain_listing. rewrite nodup_In. apply children_in.
Qed.

(** A result that is already there as a pickle is not safe: it is overwritten by the JSON file of the same name. *)
Definition toy_load (b : string) : option string := if String.eqb b "" then None else Some b.
Definition toy_dump (v : string) : string := "pickled " ++ v.
Definition both_fs : fs :=
  [(["r"], Dir); (["r"; "a"], Dir); (["r"; "a"; "500.pickle"], File "pickled new");
   (["r"; "a"; "500.json"], File "old")].

Theorem C142_existing_pickles_kept_refuted : exists s listing p b,
  tree s /\ some_order listing /\ lookup s p = Some (File b) /\ (forall d, p <> (d ++ ["500.json"])%list) /\
  snd (convert string toy_load toy_dump listing s ["r"]) = None /\
  forall q, lookup (final s (convert string toy_load toy_dump listing s ["r"])) q <> Some (File b).
Proof.
  exists both_fs, plain_listing, ["r"; "a"; "500.pickle"], "pickled new".
  split; [|split; [apply plain_order|split; [reflexivity|split; [|split; [vm_compute; reflexivity|]]]]].
  - constructor.
    + intros q p n Hq Hne Hp. apply lookup_in in Hp. unfold both_fs in Hp. cbn [In] in Hp.
      repeat destruct Hp as [Hp|Hp]; try contradiction; inversion Hp; subst p n; clear Hp; cbn [prefixes map In] in Hq;
        repeat destruct Hq as [Hq|Hq]; try contradiction; subst q; try congruence; vm_compute; reflexivity.
    + unfold both_fs. cbn [map fst].
      repeat (constructor; [cbn [In]; intro K; repeat destruct K as [K|K]; try discriminate K; exact K|]). constructor.
  - intros d E. change ["r"; "a"; "500.pickle"] with (["r"; "a"] ++ ["500.pickle"])%list in E. apply app_inj_tail in E. destruct E; discriminate.
  - intros q H. apply lookup_in in H. vm_compute in H. repeat destruct H as [H|H]; try contradiction; inversion H.
Qed.
Print Assumptions C142_existing_pickles_kept_refuted.

(** Two documents on two levels and a file that is not one. *)
Definition two_fs : fs :=
  [(["r"], Dir); (["r"; "a"], Dir); (["r"; "a"; "500.json"], File "x"); (["r"; "a"; "notes"], File "n");
   (["r"; "top.json"], File "y")].

Example C142_example_tree : tree two_fs /\
  forall p p' b, json_file two_fs ["r"] p p' b -> toy_load b <> None /\ lookup two_fs p' <> Some Dir.
Proof.
  split.
  - constructor.
    + intros q p n Hq Hne Hp. apply lookup_in in Hp. unfold two_fs in Hp. cbn [In] in Hp.
      repeat destruct Hp as [Hp|Hp]; try contradiction; inversion Hp; subst p n; clear Hp; cbn [prefixes map In] in Hq;
        repeat destruct Hq as [Hq|Hq]; try contradiction; subst q; try congruence; vm_compute; reflexivity.
    + unfold two_fs. cbn [map fst].
      repeat (constructor; [cbn [In]; intro K; repeat destruct K as [K|K]; try discriminate K; exact K|]). constructor.
  - intros p p' b (d & n & -> & -> & L). split.
    + apply lookup_in in L. unfold two_fs in L. cbn [In] in L.
      repeat destruct L as [L|L]; try contradiction; inversion L; subst; discriminate.
    + intro H. apply lookup_in in H. unfold two_fs in H. cbn [In] in H. repeat destruct H as [H|H]; try contradiction; inversion H as [E].
      * symmetry in E. apply app_eq_nil in E. destruct E; discriminate.
      * destruct d as [|x [|y d]]; cbn [app] in E; inversion E as [E'].
        apply (f_equal String.length) in E'. rewrite IdProofs.length_app_s in E'. cbn in E'. lia.
Qed.

(** It ends with both converted; cut off after five of its steps, the pickle of the first document is half written. *)
Example C142_example :
  (let r := convert string toy_load toy_dump plain_listing two_fs ["r"] in
   (snd r, lookup (final two_fs r) ["r"; "a"; "500.pickle"], lookup (final two_fs r) ["r"; "a"; "500.json"],
    lookup (final two_fs r) ["r"; "top.pickle"], lookup (killed_after two_fs r 5) ["r"; "top.pickle"],
    lookup (killed_after two_fs r 5) ["r"; "top.json"])) =
  (None, Some (File "pickled x"), None, Some (File "pickled y"), Some (File "pick"), Some (File "y")).
Proof. vm_compute. reflexivity. Qed.

(** C143 - clear_budget deletes files below the directory whose names begin with a number above 4500, and nothing else,
    also when it is interrupted. *)
Theorem C143_deletes_only : forall listing s root k q, some_order listing ->
  let s' := killed_after s (clear listing s root) k in
  lookup s' q = lookup s q \/
  lookup s' q = None /\ exists d n z b,
    q = (root ++ d ++ [n])%list /\ lookup s q = Some (File b) /\ budget_of n = Some z /\ (4500 < z)%Z.
Proof. intros listing s root k q Hl. exact (clear_safe listing Hl s root k q). Qed.
Print Assumptions C143_deletes_only.

(** It ends normally exactly when every file below has a number up to the first dot of its name, and has then deleted
    all those above 4500. *)
Theorem C143_normal_end : forall listing s root, some_order listing -> tree s -> root <> [] ->
  (snd (clear listing s root) = None <-> forall d n, file_below s root d n -> budget_of n <> None) /\
  (snd (clear listing s root) = None ->
   forall d n z, file_below s root d n -> budget_of n = Some z -> (4500 < z)%Z ->
     lookup (final s (clear listing s root)) (root ++ d ++ [n])%list = None).
Proof. intros listing s root Hl T Hr. exact (clear_ok listing Hl s root Hr T). Qed.
Print Assumptions C143_normal_end.

(** A result and its cached metrics have the same number, so a result is never deleted without its cache or the other
    way round (unless interrupted). *)
Theorem C143_cache_goes_with_result : forall listing s root k m d,
  some_order listing -> tree s -> root <> [] -> snd (clear listing s root) = None ->
  let result := (root ++ d ++ [(str_of_N k ++ "." ++ "pickle")%string])%list in
  let cached := (root ++ d ++ [(str_of_N k ++ "." ++ m ++ ".pickle")%string])%list in
  let s' := final s (clear listing s root) in
  is_file s result = true -> is_file s cached = true ->
  if (4500 <? Z.of_N k)%Z then lookup s' result = None /\ lookup s' cached = None
  else lookup s' result = lookup s result /\ lookup s' cached = lookup s cached.
Proof.
  intros listing s root k m d Hl T Hr He result cached s' Fr Fc.
  destruct (clear_ok listing Hl s root Hr T) as [_ A].
  assert (K : forall t, is_file s (root ++ d ++ [(str_of_N k ++ "." ++ t)%string])%list = true ->
    if (4500 <? Z.of_N k)%Z then lookup s' (root ++ d ++ [(str_of_N k ++ "." ++ t)%string])%list = None
    else lookup s' (root ++ d ++ [(str_of_N k ++ "." ++ t)%string])%list = lookup s (root ++ d ++ [(str_of_N k ++ "." ++ t)%string])%list).
  { intros t F. destruct (Z.ltb_spec 4500 (Z.of_N k)) as [L|L].
    - apply (A He d _ (Z.of_N k)); [|apply budget_of_number|exact L]. unfold file_below, is_file in *.
      destruct (lookup s (root ++ d ++ [(str_of_N k ++ "." ++ t)%string])%list) as [[|b]|]; try discriminate. eauto.
    - unfold s'. rewrite final_killed.
      destruct (clear_safe listing Hl s root (length (fst (clear listing s root))) (root ++ d ++ [(str_of_N k ++ "." ++ t)%string])%list)
        as [H|(_ & d' & n & z & b & E & _ & B & Z)]; [exact H|]. exfalso.
      rewrite !app_assoc in E. apply app_inj_tail in E. destruct E as [_ E]. rewrite <- E, budget_of_number in B. inversion B; subst. lia. }
  pose proof (K "pickle" Fr) as K1. pose proof (K (m ++ ".pickle")%string Fc) as K2. fold result in K1. fold cached in K2.
  destruct (4500 <? Z.of_N k)%Z; auto.
Qed.
Print Assumptions C143_cache_goes_with_result.

(** A results directory with two budgets and a cache: 5000 goes, 4500 stays; a file without a number ends the run. *)
Definition budgets_fs : fs :=
  [(["r"], Dir); (["r"; "4500.pickle"], File "a"); (["r"; "5000.pickle"], File "b"); (["r"; "5000.igd.pickle"], File "c")].

Example C143_example :
  (let r := clear plain_listing budgets_fs ["r"] in
   (snd r, lookup (final budgets_fs r) ["r"; "4500.pickle"], lookup (final budgets_fs r) ["r"; "5000.pickle"],
    lookup (final budgets_fs r) ["r"; "5000.igd.pickle"])) = (None, Some (File "a"), None, None) /\
  snd (clear plain_listing two_fs ["r"]) = Some NoNumber /\
  map budget_of ["4_501.x"; " +7.y"; "-4600"; "4__5.z"; "0x10"; ""] = [Some 4501; Some 7; Some (-4600); None; None; None]%Z.
Proof. vm_compute. auto. Qed.
