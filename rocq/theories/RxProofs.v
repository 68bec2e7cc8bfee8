Require Import List Bool Arith Lia Permutation.
From Verif Require Import RxModel RxSpec.
Import ListNotations.

Section Rx.
  Variable M : Type.
  Variable end_msg : M.
  Variable is_end : M -> bool.
  Hypothesis end_is : is_end end_msg = true.

  Inductive state : Type := Live (r : list M) | Dead (r : list M) | Done.

  Definition seq_of (s : state) : list M :=
    match s with Live r => r ++ [end_msg] | Dead r => r | Done => [] end.
  Definition rest_of (s : state) : list M :=
    match s with Live r => r | Dead r => r | Done => [] end.
  Definition live (s : state) : nat := match s with Live _ => 1 | _ => 0 end.
  Definition dead (s : state) : nat := match s with Dead _ => 1 | _ => 0 end.
  Definition total (f : state -> nat) (ls : list state) : nat := fold_right (fun s n => f s + n) 0 ls.

  Lemma total_cons f x ls : total f (x :: ls) = f x + total f ls.
  Proof. reflexivity. Qed.

  Lemma total_app f a b : total f (a ++ b) = total f a + total f b.
  Proof. induction a as [|x a IH]; [reflexivity|]. cbn [app]. rewrite !total_cons, IH. lia. Qed.

  Lemma map_split {A B} (f : A -> B) l pre x post : map f l = pre ++ x :: post ->
    exists a y b, l = a ++ y :: b /\ map f a = pre /\ f y = x /\ map f b = post.
  Proof.
    revert l. induction pre as [|p pre IH]; intros [|z l] H; cbn in H; try discriminate.
    - inversion H; subst. exists [], z, l. auto.
    - inversion H; subst. destruct (IH l H2) as (a & y & b & -> & <- & <- & <-). exists (z :: a), y, b. auto.
  Qed.

  Lemma reader_ok : forall seqs q, interleaving seqs q -> forall ls n ended, seqs = map seq_of ls ->
    (forall s m, In s ls -> In m (rest_of s) -> is_end m = false) ->
    n = ended + total live ls + total dead ls ->
    snd (reader M is_end n ended q) = (total dead ls =? 0) /\
    interleaving (map rest_of ls) (fst (reader M is_end n ended q)).
  Proof.
    intros seqs q H. induction H as [seqs Hs|before x l after q H IH]; intros ls n ended E Hm Hn.
    - subst seqs.
      assert (A : forall s, In s ls -> seq_of s = []) by (intros s Hi; rewrite Forall_forall in Hs; apply Hs, in_map, Hi).
      assert (L0 : total live ls = 0).
      { clear - A. induction ls as [|s ls IH]; [reflexivity|]. rewrite total_cons, IH by (intros; apply A; now right).
        pose proof (A s (or_introl eq_refl)) as K. destruct s as [r|r|]; cbn in *; try reflexivity. destruct r; discriminate. }
      assert (R0 : interleaving (map rest_of ls) ([] : list M)).
      { constructor. apply Forall_forall. intros r Hr. apply in_map_iff in Hr. destruct Hr as (s & <- & Hi).
        pose proof (A s Hi) as K. destruct s as [r|r|]; cbn in *; auto. destruct r; [reflexivity|discriminate]. }
      cbn [reader]. destruct (Nat.ltb_spec ended n) as [L|L]; cbn [fst snd]; (split; [|exact R0]).
      + symmetry. apply Nat.eqb_neq. lia.
      + symmetry. apply Nat.eqb_eq. lia.
    - symmetry in E. destruct (map_split _ _ _ _ _ E) as (a & s & b & -> & <- & Es & <-).
      rewrite !total_app, !total_cons in Hn.
      assert (Hlt : ended < n) by (destruct s as [r|r|]; cbn in Hn, Es; try discriminate; lia).
      cbn [reader]. destruct (Nat.ltb_spec ended n) as [_|K]; [|lia].
      assert (Hsub : forall s', incl (rest_of s') (rest_of s) ->
        forall t m, In t (a ++ s' :: b) -> In m (rest_of t) -> is_end m = false).
      { intros s' Hi t m Ht Hr. apply in_app_iff in Ht. destruct Ht as [Ht|[<-|Ht]].
        - apply (Hm t m); [apply in_app_iff; now left|exact Hr].
        - apply (Hm s m); [apply in_app_iff; right; now left|apply Hi, Hr].
        - apply (Hm t m); [apply in_app_iff; right; now right|exact Hr]. }
      destruct s as [r|r|]; cbn in Es; try discriminate.
      + (* a live provider *)
        destruct r as [|m r]; cbn in Es; inversion Es; subst.
        * rewrite end_is.
          destruct (IH (a ++ Done :: b) (ended + (total live a + (live (Live []) + total live b)) + (total dead a + (dead (Live []) + total dead b))) (S ended)) as [I1 I2].
          -- now rewrite map_app.
          -- apply Hsub. intros x Hx. exact Hx.
          -- rewrite !total_app, !total_cons. cbn [live dead]. lia.
          -- rewrite !total_app, !total_cons in I1. rewrite !map_app in *. rewrite !total_app, !total_cons. split; [exact I1|exact I2].
        * assert (Hx : is_end x = false) by (apply (Hm (Live (x :: r)) x); [apply in_app_iff; right; now left|now left]).
          rewrite Hx.
          destruct (IH (a ++ Live r :: b) (ended + (total live a + (live (Live (x :: r)) + total live b)) + (total dead a + (dead (Live (x :: r)) + total dead b))) ended) as [I1 I2].
          -- now rewrite map_app.
          -- apply Hsub. intros y Hy. now right.
          -- rewrite !total_app, !total_cons. cbn [live dead]. lia.
          -- destruct (reader M is_end _ ended q) as [out dn]. cbn [fst snd] in *.
             rewrite !total_app, !total_cons in *. rewrite !map_app in *. cbn [map rest_of] in *. split; [exact I1|]. constructor. exact I2.
      + (* one that never completes *)
        subst r. assert (Hx : is_end x = false) by (apply (Hm (Dead (x :: l)) x); [apply in_app_iff; right; now left|now left]).
        rewrite Hx. destruct (IH (a ++ Dead l :: b) n ended) as [I1 I2].
        -- now rewrite map_app.
        -- apply Hsub. intros y Hy. now right.
        -- rewrite !total_app, !total_cons. cbn [live dead] in *. lia.
        -- destruct (reader M is_end n ended q) as [out dn]. cbn [fst snd] in *.
           rewrite !total_app, !total_cons in *. rewrite !map_app in *. cbn [map rest_of] in *. split; [exact I1|]. constructor. exact I2.
  Qed.

  Definition started (p : provider M) : state := if completes M p then Live (emits M p) else Dead (emits M p).

  Lemma observable_ok : forall ps q,
    (forall p m, In p ps -> In m (emits M p) -> is_end m = false) ->
    interleaving (map (puts M end_msg) ps) q ->
    snd (multiprocess_observable M is_end ps q) = forallb (completes M) ps /\
    interleaving (map (emits M) ps) (fst (multiprocess_observable M is_end ps q)).
  Proof.
    intros ps q Hm Hq. unfold multiprocess_observable.
    assert (R : map rest_of (map started ps) = map (emits M) ps).
    { rewrite map_map. apply map_ext. intro p. unfold started. destruct (completes M p); reflexivity. }
    assert (S : map (puts M end_msg) ps = map seq_of (map started ps)).
    { rewrite map_map. apply map_ext. intro p. unfold started, puts. destruct (completes M p); [reflexivity|apply app_nil_r]. }
    assert (N : length ps = 0 + total live (map started ps) + total dead (map started ps)).
    { clear. induction ps as [|p ps IH]; [reflexivity|]. cbn [map length]. rewrite !total_cons. unfold started at 1 3.
      destruct (completes M p); cbn [live dead]; lia. }
    assert (D : (total dead (map started ps) =? 0) = forallb (completes M) ps).
    { clear. induction ps as [|p ps IH]; [reflexivity|]. cbn [map forallb]. rewrite total_cons. unfold started at 1.
      destruct (completes M p); cbn [dead]; [exact IH|reflexivity]. }
    destruct (reader_ok _ _ Hq (map started ps) (length ps) 0 S) as [A B]; [|exact N|].
    - intros s m Hs Hr. apply in_map_iff in Hs. destruct Hs as (p & <- & Hp). apply (Hm p m Hp).
      unfold started in Hr. destruct (completes M p); exact Hr.
    - rewrite R in B. rewrite D in A. auto.
  Qed.
End Rx.
