(** Proofs about the torus topology. *)
From Verif Require Import Spec Base VarModel ImgaSpec ImgaModel ImgaProofs.
Local Open Scope nat_scope.

Definition nxt (len a : nat) : nat := if a + 1 =? len then 0 else a + 1.
Definition prv (len a : nat) : nat := if a =? 0 then len - 1 else a - 1.

Lemma succ_mod a len : a < len -> (a + 1) mod len = nxt len a.
Proof. intros H. unfold nxt. destruct (Nat.eqb_spec (a + 1) len) as [->|E]; [apply Nat.mod_same; lia | apply Nat.mod_small; lia]. Qed.
Lemma pred_mod a len : a < len -> (a + len - 1) mod len = prv len a.
Proof.
  intros H. unfold prv. destruct (Nat.eqb_spec a 0) as [->|E]; [apply Nat.mod_small; lia|].
  replace (a + len - 1) with (a - 1 + 1 * len) by lia. rewrite Nat.mod_add by lia. apply Nat.mod_small. lia.
Qed.
Lemma coord_div w r c : c < w -> (r * w + c) / w = r.
Proof. intros H. rewrite Nat.add_comm, Nat.div_add by lia. rewrite Nat.div_small by lia. reflexivity. Qed.
Lemma coord_mod w r c : c < w -> (r * w + c) mod w = c.
Proof. intros H. rewrite Nat.add_comm, Nat.mod_add by lia. apply Nat.mod_small. lia. Qed.
Lemma coord_eq w r c r' c' : c < w -> c' < w -> (r * w + c = r' * w + c' <-> r = r' /\ c = c').
Proof.
  intros H H'. split; [|intros (-> & ->); reflexivity]. intros E. split.
  - rewrite <- (coord_div w r c H), E. now apply coord_div.
  - rewrite <- (coord_mod w r c H), E. now apply coord_mod.
Qed.
Lemma coord_row_mod w R a c : c < w -> 1 <= R -> (a * w + c) mod (w * R) = (a mod R) * w + c.
Proof.
  intros H HR. rewrite Nat.mod_mul_r by lia. rewrite coord_mod, coord_div by exact H. lia.
Qed.

(** a full row, in coordinates *)
Lemma full_row_coords w R r c : c < w -> r < R ->
  full_row w (w * R) (r * w + c) = [r * w + prv w c; r * w + nxt w c; prv R r * w + c; nxt R r * w + c].
Proof.
  intros Hc Hr. unfold full_row. rewrite coord_div by exact Hc.
  replace (r * w + c + w - 1) with (r * w + (c + w - 1)) by lia. rewrite (Nat.add_comm (r * w) (c + w - 1)), Nat.mod_add by lia. rewrite pred_mod by exact Hc.
  replace (r * w + c + 1) with (c + 1 + r * w) by lia. rewrite Nat.mod_add by lia. rewrite succ_mod by exact Hc.
  replace (r * w + c + w * R - w) with ((r + R - 1) * w + c) by nia. rewrite coord_row_mod by lia. rewrite pred_mod by exact Hr.
  replace (r * w + c + w) with ((r + 1) * w + c) by lia. rewrite coord_row_mod by lia. rewrite succ_mod by exact Hr.
  rewrite (Nat.add_comm (prv w c)), (Nat.add_comm (nxt w c)). reflexivity.
Qed.

(** the neighbours of island (r, c) of the full rows when [j] islands of the last row are in place *)
Definition joined (R c j : nat) : bool := (c <? j) && ((2 <=? R) || ((R =? 1) && (1 <=? c))).
Definition ent (w R j r c : nat) : list nat :=
  [r * w + prv w c; r * w + nxt w c] ++
  (if joined R c j then
     if R =? 1 then [R * w + c; R * w + c]
     else if r =? R - 1 then [(r - 1) * w + c; R * w + c]
     else if r =? 0 then [w + c; R * w + c]
     else [prv R r * w + c; nxt R r * w + c]
   else [prv R r * w + c; nxt R r * w + c]).
Definition lft (w R L c : nat) : list nat :=
  (if joined R c (S c) then [c; (R - 1) * w + c] else []) ++ [R * w + prv L c; R * w + nxt L c].

Definition stage (w R L j : nat) : list (list nat) :=
  map (fun k => ent w R j (k / w) (k mod w)) (seq 0 (R * w)) ++ map (lft w R L) (seq 0 j).

Lemma stage_length w R L j : length (stage w R L j) = R * w + j.
Proof. unfold stage. rewrite app_length, !map_length, !seq_length. reflexivity. Qed.
Lemma nth_seq n k : k < n -> nth_error (seq 0 n) k = Some k.
Proof. intros H. rewrite (nth_error_nth' (seq 0 n) 0) by (rewrite seq_length; exact H). rewrite seq_nth by exact H. reflexivity. Qed.
Lemma stage_full w R L j r c : c < w -> r < R -> nth_error (stage w R L j) (r * w + c) = Some (ent w R j r c).
Proof.
  intros Hc Hr. unfold stage. assert (r * w + c < R * w) by nia.
  rewrite nth_error_app1 by (rewrite map_length, seq_length; assumption).
  rewrite nth_error_map, nth_seq by assumption. cbn. rewrite coord_div, coord_mod by exact Hc. reflexivity.
Qed.
Lemma stage_left w R L j c : c < j -> nth_error (stage w R L j) (R * w + c) = Some (lft w R L c).
Proof.
  intros Hc. unfold stage. rewrite nth_error_app2 by (rewrite map_length, seq_length; lia).
  rewrite map_length, seq_length. replace (R * w + c - R * w) with c by lia. rewrite nth_error_map, nth_seq by exact Hc. reflexivity.
Qed.
Lemma position w R j k : 1 <= w -> k < R * w + j ->
  (exists r c, k = r * w + c /\ r < R /\ c < w) \/ (exists c, k = R * w + c /\ c < j).
Proof.
  intros Hw Hk. destruct (Nat.lt_ge_cases k (R * w)) as [H|H].
  - left. exists (k / w), (k mod w). split; [rewrite (Nat.div_mod k w) at 1 by lia; lia|]. split; [apply Nat.div_lt_upper_bound; lia | apply Nat.mod_upper_bound; lia].
  - right. exists (k - R * w). lia.
Qed.

Lemma stage_0 w R L : 1 <= w -> stage w R L 0 = map (full_row w (w * R)) (seq 0 (w * R)).
Proof.
  intros Hw. unfold stage. cbn [seq map]. rewrite app_nil_r. rewrite (Nat.mul_comm w R). apply map_ext_in. intros k Hk. apply in_seq in Hk.
  assert (E : k = k / w * w + k mod w) by (rewrite (Nat.div_mod k w) at 1 by lia; lia).
  rewrite E at 3. rewrite (Nat.mul_comm R w). rewrite full_row_coords; [reflexivity | apply Nat.mod_upper_bound; lia | apply Nat.div_lt_upper_bound; lia].
Qed.

Lemma rewire_at k x y t l r : nth_error t k = Some l -> remove_first x l = Some r -> rewire k x y t = Some (set_nth k (r ++ [y]) t).
Proof. intros H1 H2. unfold rewire. rewrite H1, H2. reflexivity. Qed.

Lemma leftover_ok w R L j : 1 <= w -> L < w -> j < L ->
  leftover w (R * w) L (R * w + j) (stage w R L j) = Some (stage w R L (S j)).
Proof.
  intros Hw HL Hj. unfold leftover. rewrite coord_div, coord_mod by lia. rewrite stage_length.
  replace (R * w + j - R * w + L - 1) with (j + L - 1) by lia. rewrite pred_mod by lia.
  replace (R * w + j - R * w + 1) with (j + 1) by lia. rewrite succ_mod by lia.
  rewrite (Nat.add_comm (prv L j)), (Nat.add_comm (nxt L j)).
  assert (Grow : joined R j (S j) = (w <? R * w + j)).
  { unfold joined. rewrite (proj2 (Nat.ltb_lt j (S j))) by lia. cbn [andb].
    destruct (Nat.ltb_spec w (R * w + j)); destruct (Nat.leb_spec 2 R); destruct (Nat.eqb_spec R 1); destruct (Nat.leb_spec 1 j); cbn; try reflexivity; nia. }
  destruct (w <? R * w + j) eqn:Ew.
  - apply Nat.ltb_lt in Ew. assert (HR : 1 <= R) by (destruct R; [cbn in Ew; lia | lia]).
    replace (R * w + j - w) with ((R - 1) * w + j) by nia.
    assert (J0 : joined R j j = false) by (unfold joined; rewrite Nat.ltb_irrefl; reflexivity).
    assert (Same : forall r c, r < R -> c < w -> c <> j \/ (R <> 1 /\ r <> 0 /\ r <> R - 1) -> ent w R (S j) r c = ent w R j r c).
    { intros r c Hr Hc H. unfold ent. f_equal. destruct (Nat.eq_dec c j) as [->|Ne].
      - destruct H as [H|(H1 & H2 & H3)]; [congruence|]. rewrite J0. rewrite Grow.
        rewrite (proj2 (Nat.eqb_neq R 1)), (proj2 (Nat.eqb_neq r (R - 1))), (proj2 (Nat.eqb_neq r 0)) by assumption. reflexivity.
      - replace (joined R c (S j)) with (joined R c j); [reflexivity|]. unfold joined. f_equal.
        destruct (Nat.ltb_spec c j), (Nat.ltb_spec c (S j)); try reflexivity; lia. }
    assert (Finish : forall t2, length t2 = R * w + j ->
      (forall r c, r < R -> c < w -> nth_error t2 (r * w + c) = Some (ent w R (S j) r c)) ->
      (forall c, c < j -> nth_error t2 (R * w + c) = Some (lft w R L c)) ->
      t2 ++ [j :: (R - 1) * w + j :: [R * w + prv L j; R * w + nxt L j]] = stage w R L (S j)).
    { intros t2 Lt F1 F2. apply nth_error_same. intros k. destruct (Nat.lt_ge_cases k (R * w + S j)) as [Hk|Hk].
      - destruct (position w R (S j) k Hw Hk) as [(r & c & -> & Hr & Hc)|(c & -> & Hc)].
        + rewrite stage_full by assumption. rewrite nth_error_app1 by (rewrite Lt; nia). now apply F1.
        + rewrite stage_left by exact Hc. destruct (Nat.eq_dec c j) as [->|Ne].
          * rewrite nth_error_app2 by lia. rewrite Lt, Nat.sub_diag. cbn [nth_error]. unfold lft. rewrite Grow. reflexivity.
          * rewrite nth_error_app1 by lia. apply F2. lia.
      - rewrite (proj2 (nth_error_None _ _)) by (rewrite app_length, Lt; cbn; lia). symmetry. apply nth_error_None. rewrite stage_length. lia. }
    destruct (Nat.eq_dec R 1) as [->|R1].
    + (* one full row: both islands are the same *)
      cbn [Nat.sub Nat.mul] in *. rewrite Nat.add_0_r in *. cbn [Nat.add] in *.
      assert (J1 : 1 <= j) by lia. assert (W2 : 2 <= w) by lia.
      assert (Pj : prv w j <> j) by (unfold prv; destruct (Nat.eqb_spec j 0); lia).
      assert (Nj : nxt w j <> j) by (unfold nxt; destruct (Nat.eqb_spec (j + 1) w); lia).
      assert (E0 : nth_error (stage w 1 L j) j = Some [prv w j; nxt w j; j; j]).
      { rewrite <- (Nat.add_0_l j) at 2. change (0 + j) with (0 * w + j). rewrite stage_full by lia. unfold ent. rewrite J0. reflexivity. }
      rewrite (rewire_at j j (w + j) _ _ [prv w j; nxt w j; j] E0).
      2:{ cbn. rewrite (proj2 (Nat.eqb_neq j (prv w j))), (proj2 (Nat.eqb_neq j (nxt w j))) by auto. rewrite Nat.eqb_refl. reflexivity. }
      cbn [app].
      assert (Lj : j < length (stage w 1 L j)) by (rewrite stage_length; lia).
      rewrite (rewire_at j j (w + j) _ [prv w j; nxt w j; j; w + j] [prv w j; nxt w j; w + j]).
      2:{ rewrite nth_error_set_nth by exact Lj. rewrite Nat.eqb_refl. reflexivity. }
      2:{ cbn. rewrite (proj2 (Nat.eqb_neq j (prv w j))), (proj2 (Nat.eqb_neq j (nxt w j))) by auto. rewrite Nat.eqb_refl. reflexivity. }
      f_equal. apply Finish.
      * rewrite !set_nth_length, stage_length. lia.
      * intros r c Hr Hc. assert (r = 0) by lia. subst r. cbn [Nat.mul Nat.add].
        rewrite !nth_error_set_nth by (rewrite ?set_nth_length; exact Lj). destruct (Nat.eqb_spec c j) as [->|Ne].
        -- unfold ent. rewrite Grow. cbn [Nat.eqb Nat.mul Nat.add app]. rewrite Nat.add_0_r. reflexivity.
        -- rewrite Same by (try lia; auto). rewrite <- (stage_full w 1 L j 0 c) by lia. reflexivity.
      * intros c Hc. rewrite !nth_error_set_nth by (rewrite ?set_nth_length; exact Lj).
        rewrite (proj2 (Nat.eqb_neq (w + c) j)) by lia. rewrite <- (stage_left w 1 L j c Hc). f_equal. lia.
    + (* at least two full rows *)
      assert (R2 : 2 <= R) by lia.
      assert (E1 : nth_error (stage w R L j) ((R - 1) * w + j) = Some [(R - 1) * w + prv w j; (R - 1) * w + nxt w j; (R - 2) * w + j; 0 * w + j]).
      { rewrite stage_full by lia. unfold ent. rewrite J0. cbn [app]. unfold prv at 2, nxt at 2.
        rewrite (proj2 (Nat.eqb_neq (R - 1) 0)) by lia. rewrite (proj2 (Nat.eqb_eq (R - 1 + 1) R)) by lia. replace (R - 1 - 1) with (R - 2) by lia. reflexivity. }
      assert (Pw : prv w j < w) by (unfold prv; destruct (j =? 0); lia).
      assert (Nw : nxt w j < w) by (unfold nxt; destruct (Nat.eqb_spec (j + 1) w); lia).
      rewrite (rewire_at ((R - 1) * w + j) j (R * w + j) _ _ [(R - 1) * w + prv w j; (R - 1) * w + nxt w j; (R - 2) * w + j] E1).
      2:{ cbn [remove_first]. rewrite (proj2 (Nat.eqb_neq j ((R - 1) * w + prv w j))) by nia. rewrite (proj2 (Nat.eqb_neq j ((R - 1) * w + nxt w j))) by nia.
          destruct (Nat.eqb_spec j ((R - 2) * w + j)) as [E|E]; [cbn [Nat.mul Nat.add]; rewrite <- E; reflexivity|].
          cbn [Nat.mul Nat.add]. rewrite Nat.eqb_refl. reflexivity. }
      cbn [app].
      assert (Lj : j < length (stage w R L j)) by (rewrite stage_length; nia).
      assert (Ll : (R - 1) * w + j < length (stage w R L j)) by (rewrite stage_length; nia).
      assert (Dif : j <> (R - 1) * w + j) by nia.
      rewrite (rewire_at j ((R - 1) * w + j) (R * w + j) _ [prv w j; nxt w j; (R - 1) * w + j; w + j] [prv w j; nxt w j; w + j]).
      2:{ rewrite nth_error_set_nth by exact Ll. rewrite (proj2 (Nat.eqb_neq j ((R - 1) * w + j))) by exact Dif.
          rewrite <- (Nat.add_0_l j) at 2. change (0 + j) with (0 * w + j). rewrite stage_full by lia. unfold ent. rewrite J0. cbn [app Nat.mul Nat.add].
          unfold prv at 2, nxt at 2. cbn [Nat.eqb Nat.add]. destruct R as [|[|R]]; [lia|lia|]. cbn [Nat.eqb]. replace (1 * w) with w by lia. reflexivity. }
      2:{ cbn [remove_first]. rewrite (proj2 (Nat.eqb_neq ((R - 1) * w + j) (prv w j))) by nia. rewrite (proj2 (Nat.eqb_neq ((R - 1) * w + j) (nxt w j))) by nia.
          rewrite Nat.eqb_refl. reflexivity. }
      f_equal. apply Finish.
      * rewrite !set_nth_length, stage_length. reflexivity.
      * intros r c Hr Hc. rewrite nth_error_set_nth by (rewrite set_nth_length; exact Lj). rewrite nth_error_set_nth by exact Ll.
        destruct (Nat.eqb_spec (r * w + c) j) as [E|E].
        -- assert (Er : r = 0 /\ c = j) by (apply (coord_eq w); lia). destruct Er as (-> & ->).
           unfold ent. rewrite Grow. rewrite (proj2 (Nat.eqb_neq R 1)) by exact R1. rewrite (proj2 (Nat.eqb_neq 0 (R - 1))) by lia. reflexivity.
        -- destruct (Nat.eqb_spec (r * w + c) ((R - 1) * w + j)) as [E'|E'].
           ++ apply coord_eq in E'; [|lia|lia]. destruct E' as (-> & ->). unfold ent. rewrite Grow. rewrite (proj2 (Nat.eqb_neq R 1)) by exact R1.
              rewrite Nat.eqb_refl. replace (R - 1 - 1) with (R - 2) by lia. reflexivity.
           ++ rewrite Same; [now apply stage_full | exact Hr | exact Hc |].
              destruct (Nat.eq_dec c j) as [->|Ne]; [right | now left]. split; [exact R1|]. split; intros ->; [apply E; lia | apply E'; reflexivity].
      * intros c Hc. rewrite nth_error_set_nth by (rewrite set_nth_length; exact Lj). rewrite nth_error_set_nth by exact Ll.
        rewrite (proj2 (Nat.eqb_neq (R * w + c) j)) by nia. rewrite (proj2 (Nat.eqb_neq (R * w + c) ((R - 1) * w + j))) by nia. now apply stage_left.
  - apply Nat.ltb_ge in Ew. f_equal. apply nth_error_same. intros k.
    assert (Cases : R = 0 \/ (R = 1 /\ j = 0)) by (destruct R as [|[|R]]; [now left | right; lia | cbn in Ew; nia]).
    destruct (Nat.lt_ge_cases k (R * w + S j)) as [Hk|Hk].
    + destruct (position w R (S j) k Hw Hk) as [(r & c & -> & Hr & Hc)|(c & -> & Hc)].
      * rewrite stage_full by assumption. rewrite nth_error_app1 by (rewrite stage_length; nia). rewrite stage_full by assumption. f_equal.
        unfold ent. f_equal. replace (joined R c (S j)) with (joined R c j); [reflexivity|]. unfold joined.
        destruct Cases as [->|(-> & ->)]; [lia|]. cbn [Nat.leb Nat.eqb orb andb]. destruct c; [reflexivity|]. cbn. destruct c; reflexivity.
      * rewrite stage_left by exact Hc. destruct (Nat.eq_dec c j) as [->|Ne].
        -- rewrite nth_error_app2 by (rewrite stage_length; lia). rewrite stage_length, Nat.sub_diag. cbn [nth_error]. unfold lft. rewrite Grow. reflexivity.
        -- rewrite nth_error_app1 by (rewrite stage_length; lia). apply stage_left. lia.
    + rewrite (proj2 (nth_error_None _ _)) by (rewrite app_length, stage_length; cbn; lia). symmetry. apply nth_error_None. rewrite stage_length. lia.
Qed.

Lemma leftovers_ok w R L : 1 <= w -> L < w -> forall k j, j + k = L ->
  leftovers w (R * w) L (seq (R * w + j) k) (stage w R L j) = Some (stage w R L L).
Proof.
  intros Hw HL. induction k as [|k IH]; intros j Hj; cbn [seq leftovers].
  - f_equal. f_equal. lia.
  - rewrite leftover_ok by lia. replace (S (R * w + j)) with (R * w + S j) by lia. apply IH. lia.
Qed.

(** ---- the finished topology ---- *)
(** the set of island (R, c) of the incomplete row; alone in its row, it drops itself *)
Definition lft_final (w R L c : nat) : list nat :=
  if L =? 1 then (if joined R c (S c) then [c; (R - 1) * w + c] else []) else lft w R L c.

Lemma filter_other N l : ~ In N l -> filter (fun x => negb (x =? N)) l = l.
Proof.
  induction l as [|x l IH]; intros H; [reflexivity|]. cbn in *. destruct (Nat.eqb_spec x N) as [->|E]; [exfalso; auto|]. cbn. rewrite IH by tauto. reflexivity.
Qed.

Lemma torus_form w n : 1 <= w -> exists t, torus w n = Some t /\ length t = n /\
  (forall r c, c < w -> r < n / w -> nth_error t (r * w + c) = Some (ent w (n / w) (n mod w) r c)) /\
  (forall c, c < n mod w -> nth_error t (n / w * w + c) = Some (lft_final w (n / w) (n mod w) c)).
Proof.
  intros Hw. unfold torus. rewrite (proj2 (Nat.eqb_neq w 0)) by lia.
  set (R := n / w). set (L := n mod w).
  assert (En : n = R * w + L) by (unfold R, L; rewrite (Nat.div_mod n w) at 1 by lia; lia).
  assert (HL : L < w) by (apply Nat.mod_upper_bound; lia).
  cbv zeta. rewrite <- (stage_0 w R L Hw). rewrite (Nat.mul_comm w R).
  destruct (Nat.ltb_spec (R * w) n) as [Hn|Hn].
  - replace (n - R * w) with L by lia. pose proof (leftovers_ok w R L Hw HL L 0 ltac:(lia)) as E. rewrite Nat.add_0_r in E. rewrite E.
    unfold lft_final. destruct (Nat.eqb_spec L 1) as [EL|EL].
    + rewrite EL in *. assert (E0 : nth_error (stage w R 1 1) (R * w) = Some (lft w R 1 0)) by (rewrite <- (Nat.add_0_r (R * w)) at 1; apply stage_left; lia).
      rewrite E0.
      assert (Form : lft w R 1 0 = (if joined R 0 1 then [0; (R - 1) * w + 0] else []) ++ [R * w; R * w]).
      { unfold lft. change (prv 1 0) with 0. change (nxt 1 0) with 0. rewrite !Nat.add_0_r. reflexivity. }
      assert (Hin : existsb (Nat.eqb (R * w)) (lft w R 1 0) = true).
      { apply existsb_exists. exists (R * w). split; [rewrite Form; apply in_or_app; right; now left | apply Nat.eqb_refl]. }
      rewrite Hin. eexists. split; [reflexivity|]. split; [rewrite set_nth_length, stage_length; lia|].
      assert (Lk : R * w < length (stage w R 1 1)) by (rewrite stage_length; lia).
      split.
      * intros r c Hc Hr. rewrite nth_error_set_nth by exact Lk. rewrite (proj2 (Nat.eqb_neq (r * w + c) (R * w))) by nia. now apply stage_full.
      * intros c Hc. assert (c = 0) by lia. subst c. rewrite Nat.add_0_r. rewrite nth_error_set_nth by exact Lk. rewrite Nat.eqb_refl. f_equal. rewrite Form, filter_app.
        assert (Z0 : filter (fun x => negb (x =? R * w)) [R * w; R * w] = []) by (cbn; rewrite Nat.eqb_refl; reflexivity). rewrite Z0, app_nil_r.
        destruct (joined R 0 1) eqn:J; [|reflexivity]. apply filter_other. intros [H|[H|[]]].
        -- unfold joined in J. destruct R; cbn in J; [discriminate|]. nia.
        -- unfold joined in J. destruct R; cbn in J; [discriminate|]. nia.
    + eexists. split; [reflexivity|]. split; [rewrite stage_length; lia|]. split; [intros; now apply stage_full | intros; now apply stage_left].
  - assert (L0 : L = 0) by lia. eexists. split; [reflexivity|]. rewrite L0. split; [rewrite stage_length; lia|]. split; [intros; now apply stage_full | intros; lia].
Qed.

Lemma ring_iff len a b : a < len -> b < len -> a <> b -> (ring_adjacent len a b <-> b = nxt len a \/ b = prv len a).
Proof.
  intros Ha Hb Ne. unfold ring_adjacent. rewrite !succ_mod by assumption. unfold nxt, prv.
  destruct (Nat.eqb_spec (a + 1) len), (Nat.eqb_spec (b + 1) len), (Nat.eqb_spec a 0); lia.
Qed.
Lemma row_length_full w n r : 1 <= w -> r < n / w -> row_length w n r = w.
Proof. intros Hw Hr. unfold row_length. pose proof (Nat.div_mod n w ltac:(lia)). nia. Qed.
Lemma row_length_last w n : 1 <= w -> row_length w n (n / w) = n mod w.
Proof. intros Hw. unfold row_length. pose proof (Nat.div_mod n w ltac:(lia)). pose proof (Nat.mod_upper_bound n w ltac:(lia)). nia. Qed.
Lemma prv_lt len a : a < len -> prv len a < len.
Proof. unfold prv. destruct (a =? 0); lia. Qed.
Lemma nxt_lt len a : a < len -> nxt len a < len.
Proof. unfold nxt. destruct (Nat.eqb_spec (a + 1) len); lia. Qed.

Definition missing_link (w n i j : nat) : Prop := w < n < 2 * w /\ ((i = 0 /\ j = w) \/ (i = w /\ j = 0)).

(** coordinates of an island *)
Definition placed (w n r c : nat) : Prop := c < w /\ (r < n / w \/ (r = n / w /\ c < n mod w)).
Lemma placed_of w n i : 1 <= w -> i < n -> placed w n (i / w) (i mod w) /\ i = i / w * w + i mod w.
Proof.
  intros Hw Hi. pose proof (Nat.div_mod i w ltac:(lia)) as Ei. pose proof (Nat.div_mod n w ltac:(lia)) as En.
  pose proof (Nat.mod_upper_bound i w ltac:(lia)). pose proof (Nat.mod_upper_bound n w ltac:(lia)).
  split; [|lia]. split; [assumption|]. assert (i / w <= n / w) by (apply Nat.div_le_mono; lia). nia.
Qed.

Lemma torus_exact w n t : 1 <= w -> torus w n = Some t -> forall i j, i < n -> j < n -> i <> j ->
  (neighbour t i j <-> torus_adjacent w n i j /\ ~ missing_link w n i j).
Proof.
  intros Hw Et i j Hi Hj Ne. destruct (torus_form w n Hw) as (t' & Et' & Lt & Full & Left). rewrite Et in Et'. injection Et' as <-.
  destruct (placed_of w n i Hw Hi) as ((Hc & Hr) & Ei). destruct (placed_of w n j Hw Hj) as ((Hc' & Hr') & Ej).
  unfold torus_adjacent, missing_link, neighbour.
  remember (i / w) as r. remember (i mod w) as c. remember (j / w) as r'. remember (j mod w) as c'. clear Heqr Heqc Heqr' Heqc'. subst i j.
  pose proof (Nat.div_mod n w ltac:(lia)) as En. pose proof (row_length_full w n) as RL1. pose proof (row_length_last w n Hw) as RL2.
  unfold column_height. clear Hi Hj. remember (n / w) as R. remember (n mod w) as L. assert (HL : L < w) by (subst L; apply Nat.mod_upper_bound; lia). clear HeqR HeqL.
  assert (Dif : r <> r' \/ c <> c') by (destruct (Nat.eq_dec r r'), (Nat.eq_dec c c'); subst; auto).
  (* the exception, in coordinates *)
  assert (Exc : (w < n < 2 * w /\ ((r * w + c = 0 /\ r' * w + c' = w) \/ (r * w + c = w /\ r' * w + c' = 0)) <->
                 R = 1 /\ 1 <= L /\ c = 0 /\ c' = 0 /\ ((r = 0 /\ r' = 1) \/ (r = 1 /\ r' = 0)))).
  { split.
    - intros (H1 & H2). assert (R = 1) by nia. assert (1 <= L) by nia. split; [assumption|]. split; [assumption|].
      assert (A : forall x y, y < w -> x * w + y = 0 -> x = 0 /\ y = 0) by (intros; nia).
      assert (B : forall x y, y < w -> x * w + y = w -> x = 1 /\ y = 0) by (intros x y Hy Hxy; apply (coord_eq w x y 1 0); lia).
      destruct H2 as [(H2 & H3)|(H2 & H3)]; apply A in H2 || apply B in H2; apply A in H3 || apply B in H3; try assumption; lia.
    - intros (-> & H1 & -> & -> & H2). split; [nia|]. destruct H2 as [(-> & ->)|(-> & ->)]; [left | right]; lia. }
  rewrite Exc. clear Exc.
  pose proof (prv_lt w c Hc) as Pw. pose proof (nxt_lt w c Hc) as Nw.
  destruct Hr as [Hr|(-> & HcL)].
  - (* a full row *)
    rewrite RL1 by assumption.
    transitivity (In (r' * w + c') (ent w R L r c)).
    { rewrite (Full r c Hc Hr). split; [intros (l & E & H); injection E as <-; exact H | intros H; eexists; split; [reflexivity | exact H]]. }
    assert (Row : (r = r' /\ ring_adjacent w c c') <-> (r' * w + c' = r * w + prv w c \/ r' * w + c' = r * w + nxt w c) ).
    { rewrite !coord_eq by assumption. destruct (Nat.eq_dec r r') as [->|D]; [|lia]. destruct Dif as [Dif|Dif]; [congruence|]. rewrite ring_iff by assumption. tauto. }
    unfold ent. rewrite in_app_iff. cbn [In].
    assert (RowI : (r * w + prv w c = r' * w + c' \/ r * w + nxt w c = r' * w + c' \/ False) <-> (r = r' /\ ring_adjacent w c c')).
    { rewrite Row. split; intros H; repeat destruct H as [H|H]; auto; contradiction. }
    rewrite RowI. clear Row RowI.
    assert (Bound : r' < R + (if c' <? L then 1 else 0)).
    { destruct Hr' as [H|(-> & H)]; [lia|]. rewrite (proj2 (Nat.ltb_lt c' L)) by exact H. lia. }
    assert (Ring : c = c' -> (ring_adjacent (R + (if c <? L then 1 else 0)) r r' <-> r' = nxt (R + (if c <? L then 1 else 0)) r \/ r' = prv (R + (if c <? L then 1 else 0)) r)).
    { intros ->. apply ring_iff; [lia | assumption |]. destruct Dif; congruence. }
    assert (Col : forall a, (a * w + c = r' * w + c' <-> (c = c' /\ r' = a))).
    { intros a. rewrite coord_eq by assumption. split; intros (H1 & H2); subst; auto. }
    destruct (joined R c L) eqn:J.
    + unfold joined in J. apply andb_true_iff in J. destruct J as (J1 & J2). rewrite J1 in *. apply Nat.ltb_lt in J1.
      assert (NoExc : ~ (R = 1 /\ 1 <= L /\ c = 0 /\ c' = 0 /\ (r = 0 /\ r' = 1 \/ r = 1 /\ r' = 0))).
      { intros (-> & _ & -> & _). cbn in J2. discriminate. }
      assert (Goal2 : In (r' * w + c') (if R =? 1 then [R * w + c; R * w + c] else if r =? R - 1 then [(r - 1) * w + c; R * w + c] else if r =? 0 then [w + c; R * w + c] else [prv R r * w + c; nxt R r * w + c])
                      <-> (c = c' /\ ring_adjacent (R + 1) r r')).
      { replace (w + c) with (1 * w + c) by lia.
        destruct (Nat.eqb_spec R 1) as [->|R1]; [|destruct (Nat.eqb_spec r (R - 1)) as [->|R2]; [|destruct (Nat.eqb_spec r 0) as [->|R3]]]; cbn [In]; rewrite ?Col;
          (destruct (Nat.eq_dec c c') as [Ec|Ec]; [rewrite (Ring Ec) | intuition congruence]); unfold nxt, prv;
          clear En RL1 RL2 Full Left Col Ring Ne J2 Dif NoExc HL Pw Nw Hc Hc'; repeat match goal with |- context [?x =? ?y] => destruct (Nat.eqb_spec x y) end; lia. }
      rewrite Goal2. tauto.
    + cbn [In]. rewrite !Col. destruct (Nat.eq_dec c c') as [Ec|Ec].
      2:{ split; [intros [H|[H|[H|[]]]]; [split; [now left | intros H'; apply Ec; lia] | lia | lia] | intros ([H|H] & _); [now left | lia]]. }
      rewrite (Ring Ec). subst c'.
      assert (K : (c <? L) = false \/ (R = 1 /\ c = 0 /\ 1 <= L /\ r = 0)).
      { unfold joined in J. apply andb_false_iff in J. destruct J as [J|J]; [now left|]. apply orb_false_iff in J. destruct J as (Ja & Jb). apply Nat.leb_gt in Ja.
        assert (R = 1) by lia. subst R. cbn [Nat.eqb andb] in Jb. apply Nat.leb_gt in Jb. destruct (Nat.ltb_spec c L); [right; lia | now left]. }
      destruct K as [K|(-> & -> & HL1 & ->)].
      * rewrite K, Nat.add_0_r in *. assert (D' : r <> r') by (destruct Dif; congruence). 
        assert (NE : ~ (R = 1 /\ 1 <= L /\ c = 0 /\ c = 0 /\ (r = 0 /\ r' = 1 \/ r = 1 /\ r' = 0))) by (intros (-> & HL1 & -> & _); apply Nat.ltb_ge in K; lia).
        tauto.
      * assert (Er : r' = 1) by (rewrite (proj2 (Nat.ltb_lt 0 L)) in Bound by lia; destruct Dif; lia). subst r'. unfold prv, nxt. cbn. split; [intros [(H & _)|H]; lia | intros (_ & H); exfalso; apply H; lia].
  - (* the incomplete row *)
    rewrite RL2. rewrite (proj2 (Nat.ltb_lt c L)) by exact HcL.
    transitivity (In (r' * w + c') (lft_final w R L c)).
    { rewrite (Left c HcL). split; [intros (l & E & H); injection E as <-; exact H | intros H; eexists; split; [reflexivity | exact H]]. }
    assert (Col : forall a, (a * w + c = r' * w + c' <-> (c = c' /\ r' = a))).
    { intros a. rewrite coord_eq by assumption. split; intros (H1 & H2); subst; auto. }
    assert (Row : (R = r' /\ ring_adjacent L c c') <-> In (r' * w + c') (if L =? 1 then [] else [R * w + prv L c; R * w + nxt L c])).
    { pose proof (prv_lt L c HcL). pose proof (nxt_lt L c HcL). destruct (Nat.eqb_spec L 1) as [->|L1].
      - split; [|intros []]. intros (<- & H1). exfalso. destruct Hr' as [H'|(_ & H')]; [lia|]. destruct Dif; lia.
      - cbn [In]. rewrite !coord_eq by lia. destruct (Nat.eq_dec R r') as [<-|D]; [|lia].
        destruct Hr' as [H'|(_ & H')]; [lia|]. destruct Dif as [Dif|Dif]; [congruence|]. rewrite ring_iff by assumption. split; intros H1; repeat destruct H1 as [H1|H1]; auto; lia. }
    assert (Split : In (r' * w + c') (lft_final w R L c) <-> In (r' * w + c') (if joined R c (S c) then [0 * w + c; (R - 1) * w + c] else []) \/ (R = r' /\ ring_adjacent L c c')).
    { rewrite Row. unfold lft_final, lft. cbn [Nat.mul Nat.add]. destruct (L =? 1); [cbn [In]; tauto | rewrite in_app_iff; tauto]. }
    rewrite Split. clear Split Row.
    assert (Bound : c = c' -> r' < R + 1) by lia.
    assert (Ring : c = c' -> (ring_adjacent (R + 1) R r' <-> r' = nxt (R + 1) R \/ r' = prv (R + 1) R)).
    { intros E. apply ring_iff; [lia | auto |]. destruct Dif; congruence. }
    destruct (Nat.eq_dec c c') as [Ec|Ec].
    + rewrite (Ring Ec). subst c'. unfold nxt, prv. rewrite Nat.eqb_refl. assert (D' : R <> r') by (destruct Dif; congruence).
      unfold joined. rewrite (proj2 (Nat.ltb_lt c (S c))) by lia. cbn [andb].
      destruct (Nat.leb_spec 2 R) as [R2|R2]; cbn [orb].
      * cbn [In]. rewrite !Col. rewrite (proj2 (Nat.eqb_neq R 0)) by lia. split; [intros H; split; [right; split; [reflexivity|] | lia] | intros (H & _)]; lia.
      * destruct (Nat.eqb_spec R 1) as [->|R1]; cbn [andb].
        -- destruct (Nat.leb_spec 1 c) as [C1|C1]; cbn [In]; rewrite ?Col; cbn [Nat.eqb]; lia.
        -- assert (R = 0) by lia. subst R. lia.
    + assert (NoCol : ~ In (r' * w + c') (if joined R c (S c) then [0 * w + c; (R - 1) * w + c] else [])).
      { destruct (joined R c (S c)); cbn [In]; rewrite ?Col; tauto. }
      split; [intros [H|H]; [contradiction | split; [now left | intros H'; apply Ec; lia]] | intros ([H|H] & _); [now right | tauto]].
Qed.

(** ---- consequences ---- *)
Lemma ring_adjacent_sym len a b : ring_adjacent len a b -> ring_adjacent len b a.
Proof. intros (H & [E|E]); split; auto. Qed.
Lemma torus_adjacent_sym w n i j : torus_adjacent w n i j -> torus_adjacent w n j i.
Proof.
  intros [(E & H)|(E & H)]; [left | right]; (split; [congruence|]); rewrite <- E; now apply ring_adjacent_sym.
Qed.
Lemma missing_link_sym w n i j : missing_link w n i j -> missing_link w n j i.
Proof. unfold missing_link. lia. Qed.

Lemma ent_range w n r c x : 1 <= w -> c < w -> r < n / w -> In x (ent w (n / w) (n mod w) r c) -> x < n.
Proof.
  intros Hw Hc Hr Hin. pose proof (Nat.div_mod n w ltac:(lia)) as En. remember (n / w) as R. remember (n mod w) as L.
  pose proof (prv_lt w c Hc). pose proof (nxt_lt w c Hc). pose proof (prv_lt R r Hr). pose proof (nxt_lt R r Hr).
  assert (B : forall a b, a < R -> b < w -> a * w + b < n) by (intros; nia).
  assert (B' : joined R c L = true -> R * w + c < n) by (unfold joined; intros J; apply andb_true_iff in J; destruct J as (J & _); apply Nat.ltb_lt in J; nia).
  unfold ent in Hin. apply in_app_or in Hin. destruct Hin as [[<-|[<-|[]]]|Hin]; [now apply B | now apply B |].
  destruct (joined R c L) eqn:J.
  - destruct (Nat.eqb_spec R 1) as [E1|E1]; [|destruct (Nat.eqb_spec r (R - 1)); [|destruct (Nat.eqb_spec r 0)]]; destruct Hin as [<-|[<-|[]]]; try (now apply B'); try (now apply B); try (apply B; lia).
    replace (w + c) with (1 * w + c) by lia. apply B; lia.
  - destruct Hin as [<-|[<-|[]]]; now apply B.
Qed.
Lemma lft_range w n c x : 1 <= w -> c < n mod w -> In x (lft_final w (n / w) (n mod w) c) -> x < n.
Proof.
  intros Hw Hc Hin. pose proof (Nat.div_mod n w ltac:(lia)) as En. pose proof (Nat.mod_upper_bound n w ltac:(lia)). remember (n / w) as R. remember (n mod w) as L.
  pose proof (prv_lt L c Hc). pose proof (nxt_lt L c Hc).
  assert (A : In x (if joined R c (S c) then [c; (R - 1) * w + c] else []) -> x < n).
  { destruct (joined R c (S c)) eqn:J; [|intros []]. assert (1 <= R) by (unfold joined in J; destruct R; [cbn in J; rewrite andb_false_r in J; discriminate | lia]). intros [<-|[<-|[]]]; nia. }
  unfold lft_final, lft in Hin. destruct (L =? 1); [auto|]. apply in_app_or in Hin. destruct Hin as [Hin|[<-|[<-|[]]]]; [auto | lia | lia].
Qed.

Lemma torus_valid w n : 1 <= w -> exists t, torus w n = Some t /\ valid_topology n t.
Proof.
  intros Hw. destruct (torus_form w n Hw) as (t & Et & Lt & Full & Left). exists t. split; [exact Et|].
  assert (Range : forall i j, neighbour t i j -> j < n).
  { intros i j (l & El & Hin). assert (Hi : i < n) by (rewrite <- Lt; apply nth_error_Some; congruence).
    destruct (placed_of w n i Hw Hi) as ((Hc & Hr) & Ei). rewrite Ei in El. destruct Hr as [Hr|(Er & Hc')].
    - rewrite Full in El by assumption. injection El as <-. eapply ent_range; eassumption.
    - rewrite Er, Left in El by assumption. injection El as <-. eapply lft_range; eassumption. }
  split; [exact Lt|]. split; [exact Range|]. intros i j H. destruct (Nat.eq_dec i j) as [->|Ne]; [exact H|].
  assert (Hi : i < n). { destruct H as (l & El & _). rewrite <- Lt. apply nth_error_Some. congruence. }
  assert (Hj : j < n) by (eapply Range; exact H).
  apply (torus_exact w n t Hw Et i j Hi Hj Ne) in H. apply (torus_exact w n t Hw Et j i Hj Hi); [auto|].
  destruct H as (H1 & H2). split; [now apply torus_adjacent_sym | intros H; apply H2; now apply missing_link_sym].
Qed.

Lemma linked_trans t i j k : linked t i j -> linked t j k -> linked t i k.
Proof. induction 1 as [|i j l H _ IH]; auto. intros H'. eapply linked_step; eauto. Qed.
Lemma linked_sym n t i j : valid_topology n t -> linked t i j -> linked t j i.
Proof.
  intros (_ & _ & Sy). induction 1 as [|i j k H _ IH]; [constructor|]. eapply linked_trans; [exact IH|]. eapply linked_step; [apply Sy; exact H | constructor].
Qed.

Lemma torus_connected w n t : 1 <= w -> torus w n = Some t -> (n = w + 1 -> w = 1) -> forall i j, i < n -> j < n -> linked t i j.
Proof.
  intros Hw Et Hn. destruct (torus_valid w n Hw) as (t' & Et' & V). rewrite Et in Et'. injection Et' as <-.
  assert (One : forall i j, i < n -> j < n -> i <> j -> torus_adjacent w n i j -> ~ missing_link w n i j -> linked t i j).
  { intros i j Hi Hj Ne A M. eapply linked_step; [|constructor]. apply (torus_exact w n t Hw Et i j Hi Hj Ne). auto. }
  pose proof (Nat.div_mod n w ltac:(lia)) as En. pose proof (Nat.mod_upper_bound n w ltac:(lia)) as HL.
  assert (Row : forall c r, placed w n r c -> linked t (r * w + c) (r * w + 0)).
  { induction c as [|c IH]; intros r (Hc & Hr); [constructor|]. assert (P : placed w n r c) by (split; [lia|]; destruct Hr as [Hr|(-> & Hr)]; [now left | right; lia]).
    eapply linked_trans; [|apply IH; exact P]. 
    assert (Bd : r * w + S c < n) by (destruct Hr as [Hr|(-> & Hr)]; nia).
    apply One; [exact Bd | lia | lia | |unfold missing_link; nia].
    left. rewrite !coord_div, !coord_mod by lia. split; [reflexivity|]. split; [lia|]. right.
    assert (S c < row_length w n r) by (destruct Hr as [Hr|(-> & Hr)]; [rewrite row_length_full by assumption | rewrite row_length_last by assumption]; lia).
    rewrite Nat.mod_small by lia. lia. }
  assert (Column : forall c r, c < w -> placed w n (S r) c -> ~ missing_link w n (S r * w + c) (r * w + c) -> linked t (S r * w + c) (r * w + c)).
  { intros c r _ (Hc & Hr) M. assert (Bd : S r * w + c < n) by (destruct Hr as [Hr|(Er & Hr)]; nia).
    apply One; [exact Bd | lia | lia | | exact M]. right. rewrite !coord_div, !coord_mod by lia. split; [reflexivity|]. split; [lia|]. right.
    assert (S r < column_height w n c) by (unfold column_height; destruct Hr as [Hr|(Er & Hr)]; [lia | rewrite (proj2 (Nat.ltb_lt _ _) Hr); lia]).
    rewrite Nat.mod_small by lia. lia. }
  assert (Zero : forall r c, placed w n r c -> linked t (r * w + c) 0).
  { induction r as [|r IH]; intros c P; [apply (Row c 0 P)|].
    eapply linked_trans; [apply Row; exact P|]. destruct P as (Hc & Hr).
    assert (P0 : placed w n (S r) 0) by (split; [lia|]; destruct Hr as [Hr|(Er & Hr)]; [now left | right; lia]).
    assert (P1 : forall c', c' < w -> placed w n r c') by (intros; split; [assumption|]; left; destruct Hr; lia).
    destruct (Nat.eq_dec (n / w) 1) as [R1|R1].
    - destruct (Nat.lt_ge_cases (n mod w) 1) as [L0|L1].
      + exfalso. lia.
      + (* go round through column 1 *)
        assert (L2 : 2 <= n mod w) by (rewrite R1 in En; lia). assert (r = 0) by lia. subst r.
        assert (P01 : placed w n 1 1) by (split; [lia | right; lia]).
        eapply linked_trans; [apply (linked_sym n); [exact V | apply (Row 1 1 P01)]|].
        eapply linked_trans; [apply (Column 1 0 ltac:(lia) P01); unfold missing_link; lia|]. apply IH. apply P1. lia.
    - eapply linked_trans; [apply (Column 0 r ltac:(lia) P0)|apply IH; apply P1; lia].
      unfold missing_link. intros (H1 & _). apply R1. symmetry. apply (Nat.div_unique n w 1 (n - w)); lia. }
  intros i j Hi Hj. destruct (placed_of w n i Hw Hi) as (Pi & ->). destruct (placed_of w n j Hw Hj) as (Pj & ->).
  eapply linked_trans; [apply Zero; exact Pi | apply (linked_sym n); [exact V | apply Zero; exact Pj]].
Qed.

Lemma torus_isolated w t : 2 <= w -> torus w (w + 1) = Some t -> forall j, ~ neighbour t w j.
Proof.
  intros Hw Et j (l & El & Hin). destruct (torus_form w (w + 1) ltac:(lia)) as (t' & Et' & _ & _ & Left). rewrite Et in Et'. injection Et' as <-.
  assert (ER : (w + 1) / w = 1) by (symmetry; apply (Nat.div_unique (w + 1) w 1 1); lia).
  assert (EL : (w + 1) mod w = 1) by (symmetry; apply (Nat.mod_unique (w + 1) w 1 1); lia).
  rewrite ER, EL in Left. specialize (Left 0 ltac:(lia)). replace (1 * w + 0) with w in Left by lia. rewrite Left in El. injection El as <-. exact Hin.
Qed.
