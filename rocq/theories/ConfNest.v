(** Which compositions of algorithms the repository supports, and the operator settings its hooks compute. *)
Require Import String Ascii List Arith NArith QArith Lia Bool.
From Verif Require Import PyStr PyStrFacts ConfModel ConfSpec ConfProofs RunConfModel RunConfSpec RunConfProofs.
Import ListNotations.
Open Scope string_scope.

Lemma str_in_in s l : str_in s l = true <-> In s l.
Proof. apply str_in_iff. Qed.

Definition composites : list string := ["IMGA"; "HGS"; "DHGS"].
Definition leaves : list string := ["SPEA2"; "IBEA"; "NSGAII"; "OMOPSO"; "NSGAIII"; "JGBL"; "SMSEMOA"; "NSLS"].

Lemma adapter_pairs a d : In a classes -> In d classes ->
  (adapter_exists d (d ++ a ++ "MessageAdapter") = true <-> In a composites /\ In d leaves).
Proof.
  intros Ha Hd.
  assert (H : forallb (fun p => Bool.eqb (adapter_exists (snd p) (snd p ++ fst p ++ "MessageAdapter"))
                                  (str_in (fst p) composites && str_in (snd p) leaves)) (list_prod classes classes) = true)
    by (vm_compute; reflexivity).
  rewrite forallb_forall in H. specialize (H (a, d) (in_prod _ _ _ _ Ha Hd)). cbn [fst snd] in H.
  apply eqb_prop in H. rewrite H, andb_true_iff, !str_in_in. reflexivity.
Qed.

Lemma apart a : In a composites -> In a leaves -> False.
Proof. intros H1 H2. cbn in H1, H2. repeat (destruct H1 as [<-|H1]; [repeat (destruct H2 as [H2|H2]; [discriminate|]); assumption|]). assumption. Qed.

Lemma known_composite a : In a composites -> In a classes.
Proof. intro H. apply str_in_in. cbn in H. repeat (destruct H as [<-|H]; [reflexivity|]). contradiction. Qed.
Lemma known_leaf a : In a leaves -> In a classes.
Proof. intro H. apply str_in_in. cbn in H. repeat (destruct H as [<-|H]; [reflexivity|]). contradiction. Qed.

Lemma supported_iff mods pops names : names <> [] ->
  (supported (repo mods pops) names <->
   (exists a, names = [a] /\ In a classes) \/ (exists a d, names = [a; d] /\ In a composites /\ In d leaves)).
Proof.
  intro NE. split.
  - intros [Hc Ha]. cbn [repo w_class w_adapter] in Hc, Ha.
    destruct names as [|a [|d [|e rest]]]; [contradiction| | |].
    + left. exists a. split; [reflexivity|]. apply str_in_in, Hc. now left.
    + right. exists a, d. split; [reflexivity|].
      apply adapter_pairs; [apply str_in_in, Hc; now left | apply str_in_in, Hc; right; now left|]. exact (Ha [] a d [] eq_refl).
    + exfalso.
      assert (C : forall x, In x (a :: d :: e :: rest) -> In x classes) by (intros x Hx; apply str_in_in, Hc, Hx).
      pose proof (Ha [] a d (e :: rest) eq_refl) as H1. pose proof (Ha [a] d e rest eq_refl) as H2.
      apply adapter_pairs in H1; [|apply C; cbn; auto|apply C; cbn; auto].
      apply adapter_pairs in H2; [|apply C; cbn; auto|apply C; cbn; auto].
      exact (apart d (proj1 H2) (proj2 H1)).
  - intros [(a & -> & Ha)|(a & d & -> & Ha & Hd)]; split; cbn [repo w_class w_adapter].
    + intros x [<-|[]]. apply str_in_in, Ha.
    + intros before x y after E. destruct before as [|z before]; [discriminate|]. destruct before; discriminate.
    + intros x [<-|[<-|[]]]; apply str_in_in; [now apply known_composite|now apply known_leaf].
    + intros before x y after E. destruct before as [|z [|z' before]]; injection E as; subst; [|discriminate|destruct before; discriminate].
      apply adapter_pairs; [now apply known_composite|now apply known_leaf|]. auto.
Qed.

(** ---- operator settings ---- *)
Fixpoint levels (v : val cval) : list (string * conf cval) :=
  match v with
  | Partial a c => (a, c) :: flat_map (fun kv => if String.eqb (fst kv) "driver" then levels (snd kv) else []) c
  | _ => []
  end.

Lemma level_in v a c : level v a c -> In (a, c) (levels v).
Proof.
  induction 1 as [a c|a c inner b d Hin _ IH]; cbn [levels]; [now left|].
  right. apply in_flat_map. exists ("driver", inner). split; [exact Hin|]. cbn [fst snd]. exact IH.
Qed.

Definition settings (ac : string * conf cval) :=
  (fst ac, get "mutation_rate" (snd ac), get "crossover_rate" (snd ac), get "mutation_rates" (snd ac),
   get "crossover_rates" (snd ac), get "reference_point" (snd ac)).

Definition expected (q : Q) (r : cval) (a : string) :=
  (a, if str_in a ["HGS"; "DHGS"] then None else Some (num q),
   if str_in a ["HGS"; "DHGS"] then None else Some (num (9#10)),
   if str_in a ["HGS"; "DHGS"] then Some (nums [q; q; q]) else None,
   if str_in a ["HGS"; "DHGS"] then Some (nums [9#10; 9#10; 9#10]) else None,
   if str_in a ["HGS"; "DHGS"; "SMSEMOA"] then Some (Plain r) else None).

Definition rate (ds : list cval) : Q := 1 # Pos.of_succ_nat (List.length ds).
Lemma rate_ok ds : (rate ds * inject_Z (Z.of_nat (S (List.length ds))) == 1)%Q.
Proof. unfold rate, Qeq, inject_Z, Qmult; cbn [Qnum Qden]. rewrite Pos.mul_1_r, Z.mul_1_r, Nat2Z.inj_succ, Zpos_P_of_succ_nat. lia. Qed.

Lemma same_some {A} (x y : A) : Some x = Some y -> x = y.
Proof. congruence. Qed.
Lemma repeat_map {A B} (f : A -> B) x n : map f (repeat x n) = repeat (f x) n.
Proof. induction n; cbn; congruence. Qed.

Lemma settings_listed mods pops problem algo d ds p ps v a c : In problem problems -> In algo algorithms ->
  pm_dims (mods problem) = VSeq (d :: ds) -> pm_extra (mods problem) = VSeq (VSeq p :: ps) ->
  prepare (repo mods pops) algo problem = Ok (Some v) -> level v a c -> fitted (S (List.length ds)) (List.length p) a c.
Proof.
  intros Hp Ha Hd Hf E Hl. rewrite prepare_mods in E.
  destruct (mods problem) as [dims fits extra]. cbn in Hd, Hf. subst dims extra.
  set (pm := {| pm_dims := VSeq (d :: ds); pm_fitnesses := fits; pm_extra := VSeq (VSeq p :: ps) |}) in *.
  assert (H : map (fun pa : string * string =>
       match prepare (repo (fun _ => pm) pops) (snd pa) (fst pa) with
       | Ok (Some v) => Some (map settings (levels v))
       | _ => None
       end) (list_prod problems algorithms)
     = map (fun pa => Some (map (expected (rate ds) (VSeq (repeat (VNum 50) (List.length p)))) (split "+"%char (snd pa)))) (list_prod problems algorithms)).
  { vm_compute. reflexivity. }
  assert (G := ext_in_map H (problem, algo) (in_prod _ _ _ _ Hp Ha)). cbv beta in G. cbn [fst snd] in G. rewrite E in G.
  apply same_some in G. apply level_in in Hl. apply (in_map settings) in Hl. rewrite G in Hl.
  apply in_map_iff in Hl. destruct Hl as (b & Eb & _). unfold expected, settings in Eb. cbn [fst snd] in Eb.
  assert (Eab : b = a) by congruence. subst b.
  assert (E1 := f_equal (fun t => snd (fst (fst (fst (fst t))))) Eb). assert (E2 := f_equal (fun t => snd (fst (fst (fst t)))) Eb).
  assert (E3 := f_equal (fun t => snd (fst (fst t))) Eb). assert (E4 := f_equal (fun t => snd (fst t)) Eb).
  assert (E5 := f_equal snd Eb). cbn [fst snd] in E1, E2, E3, E4, E5. clear Eb. unfold fitted.
  split.
  - destruct (str_in a ["HGS"; "DHGS"]) in *; exists (rate ds); (split; [apply rate_ok|]).
    + split; apply get_in; [exact (eq_sym E3)|exact (eq_sym E4)].
    + split; apply get_in; [exact (eq_sym E1)|exact (eq_sym E2)].
  - intro Es. rewrite Es in E5. apply get_in. rewrite repeat_map. exact (eq_sym E5).
Qed.
