(** Property C56: the fitness archive is a map keyed by the contents of the vector. *)
From Verif Require Import Spec Base DomModel DomProofs ArchiveModel.

Section Archive.
  Variable value : Type.
  Notation store := (store value).

  (** The vector a key stands for, whatever sequence type it is. *)
  Definition contents (k : key_arg) : vec := match k with AsList v | AsTuple v => v end.

  (** Specification: what the last call about [v] in a history says, most recent call first. *)
  Fixpoint last_about (v : vec) (recent : list (call value)) : option value :=
    match recent with
    | [] => None
    | Store k x :: earlier => if list_eq_dec Z.eq_dec (contents k) v then Some x else last_about v earlier
    | Delete k :: earlier => if list_eq_dec Z.eq_dec (contents k) v then None else last_about v earlier
    end.

  Definition keys_once (d : store) : Prop := NoDup (map fst d).

  Lemma get_set k x d v : dict_get value v (dict_set value k x d) = if list_eq_dec Z.eq_dec k v then Some x else dict_get value v d.
  Proof.
    induction d as [|(k', y) d IH]; cbn.
    - destruct (list_eq_dec Z.eq_dec k v) as [->|N]; [now rewrite (proj2 (vec_eqb_spec v v) eq_refl)|].
      destruct (vec_eqb v k) eqn:E; [apply vec_eqb_spec in E; congruence | reflexivity].
    - destruct (vec_eqb k k') eqn:Ek; cbn.
      + apply vec_eqb_spec in Ek. subst k'. destruct (list_eq_dec Z.eq_dec k v) as [->|N]; [now rewrite (proj2 (vec_eqb_spec v v) eq_refl)|].
        destruct (vec_eqb v k) eqn:E; [apply vec_eqb_spec in E; congruence | reflexivity].
      + destruct (vec_eqb v k') eqn:Ev; [|exact IH]. apply vec_eqb_spec in Ev. subst k'.
        destruct (list_eq_dec Z.eq_dec k v) as [->|N]; [rewrite (proj2 (vec_eqb_spec v v) eq_refl) in Ek; discriminate | reflexivity].
  Qed.
  Lemma set_keys k x d v : In v (map fst (dict_set value k x d)) <-> v = k \/ In v (map fst d).
  Proof.
    induction d as [|(k', y) d IH]; cbn; [intuition|]. destruct (vec_eqb k k') eqn:E; cbn.
    - apply vec_eqb_spec in E. subst. intuition.
    - rewrite IH. intuition.
  Qed.
  Lemma set_once k x d : keys_once d -> keys_once (dict_set value k x d).
  Proof.
    unfold keys_once. induction d as [|(k', y) d IH]; cbn; intros H; [constructor; [intros [] | constructor]|]. inversion H; subst.
    destruct (vec_eqb k k') eqn:E; cbn; constructor; auto. rewrite set_keys. intros [->|C]; [|auto].
    rewrite (proj2 (vec_eqb_spec k k) eq_refl) in E. discriminate.
  Qed.
  Lemma get_none d v : dict_get value v d = None <-> ~ In v (map fst d).
  Proof.
    induction d as [|(k', y) d IH]; cbn; [intuition|]. destruct (vec_eqb v k') eqn:E.
    - apply vec_eqb_spec in E. subst. split; [discriminate | intros H; exfalso; apply H; now left].
    - rewrite IH. split; [intros H [C|C]; [subst; rewrite (proj2 (vec_eqb_spec v v) eq_refl) in E; discriminate | auto] | intros H C; apply H; now right].
  Qed.
  Lemma del_spec k d : keys_once d ->
    match dict_del value k d with
    | None => dict_get value k d = None
    | Some r => keys_once r /\ (forall v, dict_get value v r = if list_eq_dec Z.eq_dec k v then None else dict_get value v d) /\ (forall v, In v (map fst r) -> In v (map fst d))
    end.
  Proof.
    induction d as [|(k', y) d IH]; cbn; intros H; [reflexivity|]. inversion H as [|? ? N1 N2]; subst. destruct (vec_eqb k k') eqn:E.
    - apply vec_eqb_spec in E. subst k'. split; [exact N2|]. split; [|intros; now right]. intros v. destruct (list_eq_dec Z.eq_dec k v) as [->|Ne]; [now apply get_none|].
      destruct (vec_eqb v k) eqn:Ev; [apply vec_eqb_spec in Ev; congruence | reflexivity].
    - specialize (IH N2). destruct (dict_del value k d) as [r|]; [|exact IH]. destruct IH as (I1 & I2 & I3). split; [|split].
      + unfold keys_once. cbn. constructor; [intros C; apply N1; now apply I3 | exact I1].
      + intros v. cbn. destruct (vec_eqb v k') eqn:Ev; [|apply I2]. apply vec_eqb_spec in Ev. subst k'.
        destruct (list_eq_dec Z.eq_dec k v) as [->|Ne]; [rewrite (proj2 (vec_eqb_spec v v) eq_refl) in E; discriminate | reflexivity].
      + intros v [C|C]; [now left | right; now apply I3].
  Qed.

  Lemma after_spec calls : keys_once (after calls) /\ forall v, dict_get value v (after calls) = last_about v (rev calls).
  Proof.
    induction calls as [|c calls IH] using rev_ind; [split; [constructor | reflexivity]|].
    unfold after. rewrite fold_left_app. cbn [fold_left]. fold (after calls). destruct IH as (IH1 & IH2). rewrite rev_app_distr. cbn [rev app].
    destruct c as [k x|k]; cbn [do_call last_about]; unfold arc_set, arc_del.
    - split; [now apply set_once|]. intros v. rewrite get_set, IH2. destruct k; reflexivity.
    - pose proof (del_spec (keytransform k) (after calls) IH1) as D. destruct (dict_del value (keytransform k) (after calls)) as [r|].
      + destruct D as (D1 & D2 & _). split; [exact D1|]. intros v. rewrite D2, IH2. destruct k; reflexivity.
      + split; [exact IH1|]. intros v. change (match k with AsList v | AsTuple v => v end) with (keytransform k). change (contents k) with (keytransform k).
        destruct (list_eq_dec Z.eq_dec (keytransform k) v) as [<-|Ne]; [exact D | apply IH2].
  Qed.
End Archive.

(** After any history: a lookup, by list or tuple, gives what the last call about that vector says (KeyError when it
    was deleted or never stored); membership agrees; the length and the iteration count and list those vectors once. *)
Theorem C56_archive_is_a_map (value : Type) (calls : list (call value)) :
  (forall k, arc_get value k (after calls) = last_about value (contents k) (rev calls)) /\
  (forall k, arc_mem value k (after calls) = true <-> last_about value (contents k) (rev calls) <> None) /\
  NoDup (arc_iter value (after calls)) /\ (forall v, In v (arc_iter value (after calls)) <-> last_about value v (rev calls) <> None) /\
  arc_len value (after calls) = length (arc_iter value (after calls)).
Proof.
  destruct (after_spec value calls) as (K & G).
  split; [intros k; unfold arc_get; rewrite G; destruct k; reflexivity|].
  split; [intros k; unfold arc_mem, arc_get; rewrite G; destruct k; cbn; destruct (last_about value _ _); split; congruence|].
  split; [exact K|]. split; [|unfold arc_len, arc_iter; now rewrite map_length].
  intros v. rewrite <- G. pose proof (get_none value (after calls) v) as N. unfold arc_iter.
  destruct (dict_get value v (after calls)) as [x|] eqn:E.
  - split; [discriminate|]. intros _. destruct (in_dec (list_eq_dec Z.eq_dec) v (map fst (after calls))) as [Y|Y]; [exact Y|]. apply N in Y. discriminate.
  - split; [intros C; exfalso; now apply N in C | congruence].
Qed.
Print Assumptions C56_archive_is_a_map.

(** Deleting a vector that is not there raises KeyError. *)
Theorem C56_delete_missing_raises (value : Type) (calls : list (call value)) k :
  arc_del value k (after calls) = None <-> last_about value (contents k) (rev calls) = None.
Proof.
  destruct (after_spec value calls) as (K & G). rewrite <- G. unfold arc_del. replace (contents k) with (keytransform k) by (destruct k; reflexivity).
  pose proof (del_spec value (keytransform k) (after calls) K) as D. destruct (dict_del value (keytransform k) (after calls)) as [r|] eqn:E.
  - split; [discriminate|]. intros C. exfalso. clear -E C. revert r E C. generalize (after calls) as d. induction d as [|(k', y) d IH]; cbn; [discriminate|]. intros r E C.
    destruct (vec_eqb (keytransform k) k'); [discriminate|]. destruct (dict_del value (keytransform k) d) as [r'|]; [|discriminate]. eapply IH; [reflexivity | exact C].
  - split; [intros _; exact D | reflexivity].
Qed.
Print Assumptions C56_delete_missing_raises.

Example C56_example :
  let d := after [Store (AsList [1; 2]%Z) 10; Store (AsTuple [1; 2]%Z) 20; Store (AsList [3]%Z) 30; Delete (AsTuple [3]%Z); Delete (AsList [9]%Z)] in
  arc_get nat (AsTuple [1; 2]%Z) d = Some 20 /\ arc_mem nat (AsList [3]%Z) d = false /\ arc_len nat d = 1.
Proof. repeat split; reflexivity. Qed.
