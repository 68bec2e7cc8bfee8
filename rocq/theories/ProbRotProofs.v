From Coq Require Import ZArith Reals List Lra Lia Psatz.
From Verif Require Import ProbModel ProbRotModel ProbSpec ProbProofs ProbMore ProbZdt3.
Import ListNotations.
Local Open Scope R_scope.

Lemma mmap_ex A B (f : A -> option B) l : (forall a, In a l -> exists b, f a = Some b) ->
  exists r, mmap f l = Some r /\ length r = length l.
Proof.
  induction l as [|a l IH]; intros H; cbn [mmap]; [exists []; split; reflexivity|].
  destruct (H a) as (b & Eb); [now left|]. destruct IH as (r & Er & L); [intros c Hc; apply H; now right|].
  rewrite Eb, Er. cbn [bind]. exists (b :: r). split; [reflexivity|cbn; lia].
Qed.

Lemma dot_ok row : forall x, length row = length x -> exists s, dot row x = Some s.
Proof.
  induction row as [|a row IH]; intros [|v x] H; cbn in H; try lia; cbn [dot]; [eauto|].
  destruct (IH x ltac:(lia)) as (s & ->). cbn [bind]. eauto.
Qed.

Lemma get_in (l : list R) i : (i < length l)%nat -> exists v, get l i = Some v.
Proof.
  intros H. unfold get. destruct (nth_error l i) eqn:E; [eauto|]. apply nth_error_None in E. lia.
Qed.

Lemma z_ok M x : Forall (fun row => length row = length x) M ->
  exists zs, z M x = Some zs /\ length zs = length M.
Proof.
  intros H. apply mmap_ex. intros row Hr. apply dot_ok. rewrite Forall_forall in H. now apply H.
Qed.

Lemma z_bis_ok lambdas zs : (length zs <= length lambdas)%nat ->
  exists zb, z_bis lambdas zs = Some zb /\ length zb = length zs.
Proof.
  intros H. unfold z_bis.
  destruct (mmap_ex nat R (fun i => let* zi := get zs i in let* li := get lambdas i in
     Some (if Rlt_dec zi 0 then - li * zi else if Rlt_dec 1 zi then li * zi else zi)) (seq 0 (length zs)))
    as (r & E & L).
  - intros i Hi. apply in_seq in Hi. destruct (get_in zs i ltac:(lia)) as (v & ->).
    destruct (get_in lambdas i ltac:(lia)) as (w & ->). cbn [bind]. eauto.
  - exists r. rewrite seq_length in L. split; assumption.
Qed.

Lemma mprod_ex A (f : A -> option R) l : l <> [] -> (forall a, In a l -> exists b, f a = Some b) ->
  exists r, mprod f l = Some r.
Proof.
  induction l as [|a l IH]; intros N H; [congruence|].
  destruct (H a) as (b & Eb); [now left|]. destruct l as [|c l]; [exists b; exact Eb|].
  destruct IH as (r & Er); [discriminate|intros d Hd; apply H; now right|].
  cbn [mprod] in *. rewrite Eb, Er. cbn [bind]. eauto.
Qed.

Lemma cos_part_ok zb m : (m <= length zb)%nat -> (1 <= length zb)%nat -> exists c, base_fit_cos zb m = Some c.
Proof.
  intros H H1. unfold base_fit_cos.
  assert (G : forall i, (i < length zb)%nat -> exists v, (let* v := get zb i in Some (cos (v * PI / 2))) = Some v).
  { intros i Hi. destruct (get_in zb i Hi) as (v & ->). cbn [bind]. eauto. }
  destruct (Nat.ltb_spec 1 m).
  - apply mprod_ex; [destruct m; [lia|discriminate]|]. intros i Hi. apply in_seq in Hi. apply G. lia.
  - destruct (Nat.eqb_spec m 1); [apply G; lia|eauto].
Qed.

Lemma up_ok gv zb m : (1 <= m <= 5)%nat -> (5 <= length zb)%nat -> exists v, base_fit_up gv zb m = Some v.
Proof.
  intros Hm Hl. unfold base_fit_up. destruct (cos_part_ok zb (m - 1)) as (c & ->); [lia|lia|]. cbn [bind].
  destruct (Nat.ltb_spec m 5).
  - destruct (get_in zb (m - 1) ltac:(lia)) as (v & ->). cbn [bind]. eauto.
  - cbn [bind]. eauto.
Qed.

Lemma bottom_ok gv zb m : (1 <= m <= 5)%nat -> (5 <= length zb)%nat -> exists v, base_fit_bottom gv zb m = Some v.
Proof.
  intros Hm Hl. unfold base_fit_bottom, S_, psum.
  destruct (msum_nonneg nat (fun i => let* zi := get zb i in Some (p zi ^ 2)) (seq 0 (m - 1))) as (s & -> & P).
  { intros i Hi. apply in_seq in Hi. destruct (get_in zb i ltac:(lia)) as (v & ->). cbn [bind].
    eexists. split; [reflexivity|]. apply pow2_ge_0. }
  cbn [bind]. rewrite sqrt_ok by assumption. cbn [bind].
  pose proof (exp_pos (- sqrt s)). rewrite div_ok by lra. cbn [bind].
  destruct (up_ok gv zb m Hm Hl) as (u & ->). cbn [bind]. eauto.
Qed.

Lemma fit11_ok M lambdas x m : Forall (fun row => length row = length x) M -> (5 <= length M)%nat ->
  (length M <= length lambdas)%nat -> (1 <= m <= 5)%nat -> exists v, base_fit11 M lambdas x m = Some v.
Proof.
  intros H1 H2 H3 H4. unfold base_fit11. destruct (z_ok M x H1) as (zs & -> & L). cbn [bind].
  destruct (z_bis_ok lambdas zs ltac:(lia)) as (zb & -> & Lb). cbn [bind].
  destruct (msum_defined R (fun v => Some ((v - 0.5) ^ 2)) zb) as (g & G); [eauto|]. unfold g11. rewrite G. cbn [bind].
  destruct (all_non_negative zs); [apply up_ok|apply bottom_ok]; lia.
Qed.

Lemma fit12_ok M lambdas x m : Forall (fun row => length row = length x) M -> (5 <= length M)%nat ->
  (length M <= length lambdas)%nat -> (1 <= m <= 5)%nat -> exists v, base_fit12 M lambdas x m = Some v.
Proof.
  intros H1 H2 H3 H4. unfold base_fit12. destruct (z_ok M x H1) as (zs & -> & L). cbn [bind].
  destruct (z_bis_ok lambdas zs ltac:(lia)) as (zb & -> & Lb). cbn [bind].
  destruct (msum_defined R (fun v => Some ((v - 0.5) ^ 2 - cos (20 * PI * (v - 0.5)))) zs) as (g & G); [eauto|].
  unfold g12. rewrite G. cbn [bind].
  destruct (all_non_negative zs); [apply up_ok|apply bottom_ok]; lia.
Qed.

Lemma all_values (fit : list R -> nat -> option R) x n : (forall m, (1 <= m <= n)%nat -> exists v, fit x m = Some v) ->
  exists f, map (fun g => g x) (map (fun m y => fit y m) (seq 1 n)) = map Some f.
Proof.
  intros H. rewrite map_map.
  assert (G : forall k s, (forall m, (s <= m < s + k)%nat -> exists v, fit x m = Some v) ->
    exists f, map (fun m => fit x m) (seq s k) = map Some f).
  { induction k as [|k IH]; intros s Hs; [exists []; reflexivity|]. cbn [seq map].
    destruct (Hs s ltac:(lia)) as (v & ->). destruct (IH (S s)) as (f & E); [intros m Hm; apply Hs; lia|].
    exists (v :: f). cbn [map]. now rewrite E. }
  apply G. intros m Hm. apply H. lia.
Qed.

Lemma rows_of {A B} (f : A -> B) n (m : list (list A)) (P : Forall (fun r => length r = n) m) :
  Forall (fun r => length r = n) (map (map f) m).
Proof. induction P; cbn [map]; constructor; [now rewrite map_length|assumption]. Qed.

Lemma matrix11 : Forall (fun r => length r = 30%nat) uf11_matrix /\ length uf11_matrix = 30%nat.
Proof. split; [repeat constructor|reflexivity]. Qed.
Lemma matrix12 : Forall (fun r => length r = 30%nat) uf12_matrix /\ length uf12_matrix = 30%nat.
Proof. split; [repeat constructor|reflexivity]. Qed.

Lemma adm30 P fit front x : P = rotated fit (scaled 1000 lower_bounds) (scaled 1000 upper_bounds) front ->
  admissible P x -> length x = 30%nat.
Proof.
  intros -> H. apply adm_length in H. rewrite H. cbn [p_dims rotated]. rewrite combine_length.
  unfold scaled. rewrite !map_length. reflexivity.
Qed.

Lemma UF11_defined front : objectives_defined (UF11 front).
Proof.
  intros x Hx. pose proof (adm30 _ _ front x eq_refl Hx) as L. apply all_values. intros m Hm.
  destruct matrix11 as [R11 L11].
  apply fit11_ok; [rewrite L; unfold scaled; now apply rows_of| | |assumption].
  - rewrite map_length, L11. lia.
  - unfold scaled. rewrite !map_length, L11. cbn [length uf11_lambdas]. lia.
Qed.

Lemma UF12_defined front : objectives_defined (UF12 front).
Proof.
  intros x Hx. pose proof (adm30 _ _ front x eq_refl Hx) as L. apply all_values. intros m Hm.
  destruct matrix12 as [R12 L12].
  apply fit12_ok; [rewrite L; unfold scaled; now apply rows_of| | |assumption].
  - rewrite map_length, L12. lia.
  - unfold scaled. rewrite !map_length, L12. cbn [length uf12_lambdas]. lia.
Qed.

(** ** A vector that the rotation takes next to the middle *)
Fixpoint zdot (a b : list Z) : option Z :=
  match a, b with
  | [], [] => Some 0%Z
  | u :: a', v :: b' => match zdot a' b' with Some s => Some (u * v + s)%Z | None => None end
  | _, _ => None
  end.

Lemma dot_zdot a : forall b s, zdot a b = Some s -> dot (scaled 10000 a) (scaled 10000 b) = Some (IZR s / 100000000).
Proof.
  induction a as [|u a IH]; intros [|v b] s H; cbn [zdot] in H; try discriminate.
  - injection H as <-. cbn. f_equal. lra.
  - destruct (zdot a b) as [t|] eqn:E; [|discriminate]. injection H as <-.
    cbn [scaled map dot]. fold (scaled 10000 a). fold (scaled 10000 b). rewrite (IH _ _ E). cbn [bind]. f_equal.
    rewrite plus_IZR, mult_IZR. lra.
Qed.

Fixpoint zrows (M : list (list Z)) (b : list Z) : option (list Z) :=
  match M with
  | [] => Some []
  | r :: M' => match zdot r b, zrows M' b with Some s, Some l => Some (s :: l) | _, _ => None end
  end.

Lemma z_zrows M b : forall l, zrows M b = Some l ->
  z (map (scaled 10000) M) (scaled 10000 b) = Some (scaled 100000000 l).
Proof.
  unfold z. induction M as [|r M IH]; intros l H; cbn [zrows] in H.
  - injection H as <-. reflexivity.
  - destruct (zdot r b) as [s|] eqn:E; [|discriminate]. destruct (zrows M b) as [l'|] eqn:E'; [|discriminate].
    injection H as <-. cbn [map mmap]. rewrite (dot_zdot _ _ _ E). cbn [bind]. rewrite (IH _ eq_refl). reflexivity.
Qed.

Definition middle : list Z := (
  [7381; 237; (-5554); (-1241); 2178; 3166; (-443); 7782; 538; 920; (-6114); 4124; 7427; 8349; 8296;
   5000; 5000; 5000; 5000; 5000; 5000; 5000; 5000; 5000; 5000; 5000; 5000; 5000; 5000; 5000])%Z.

Lemma middle_z : exists ks, zrows uf11_matrix middle = Some ks /\ length ks = 30%nat /\
  forallb (fun k => (49990000 <=? k)%Z && (k <=? 50010000)%Z)%bool ks = true.
Proof. eexists. split; [vm_compute; reflexivity|]. split; vm_compute; reflexivity. Qed.

Lemma middle_zs : exists zs, z (map (scaled 10000) uf11_matrix) (scaled 10000 middle) = Some zs /\ length zs = 30%nat /\
  Forall (fun v => 0.4999 <= v <= 0.5001) zs.
Proof.
  destruct middle_z as (ks & E & L & B). exists (scaled 100000000 ks).
  split; [now apply z_zrows|]. split; [unfold scaled; now rewrite map_length|].
  rewrite forallb_forall in B. apply Forall_forall. intros v Hv. apply in_map_iff in Hv.
  destruct Hv as (k & <- & Hk). apply B in Hk. apply andb_prop in Hk. destruct Hk as [H1 H2].
  apply Z.leb_le in H1. apply Z.leb_le in H2. apply IZR_le in H1. apply IZR_le in H2. lra.
Qed.

Lemma in_get (l : list R) i v : get l i = Some v -> In v l.
Proof. unfold get. apply nth_error_In. Qed.

Lemma z_bis_same lambdas zs : Forall (fun v => 0 <= v <= 1) zs -> (length zs <= length lambdas)%nat ->
  z_bis lambdas zs = Some zs.
Proof.
  intros H L. unfold z_bis.
  assert (G : forall pre suf, Forall (fun v => 0 <= v <= 1) suf -> (length (pre ++ suf) <= length lambdas)%nat ->
    mmap (fun i => let* zi := get (pre ++ suf) i in let* li := get lambdas i in
     Some (if Rlt_dec zi 0 then - li * zi else if Rlt_dec 1 zi then li * zi else zi)) (seq (length pre) (length suf)) = Some suf).
  { intros pre suf; revert pre. induction suf as [|v suf IH]; intros pre Hs Hl; [reflexivity|].
    inversion Hs as [|? ? Hv Hs']; subst.
    cbn [length seq mmap]. unfold get at 1. rewrite nth_error_app2, Nat.sub_diag by lia. cbn [nth_error bind].
    rewrite app_length in Hl. cbn [length] in Hl.
    destruct (get_in lambdas (length pre) ltac:(lia)) as (w & ->). cbn [bind].
    destruct (Rlt_dec v 0); [lra|]. destruct (Rlt_dec 1 v); [lra|].
    specialize (IH (pre ++ [v]) Hs'). rewrite <- app_assoc in IH. cbn [app] in IH.
    replace (S (length pre)) with (length (pre ++ [v])) by (rewrite app_length; cbn; lia).
    rewrite IH; [reflexivity|]. rewrite app_length. cbn [length]. lia. }
  apply (G [] zs H). exact L.
Qed.

Lemma g_small zs : Forall (fun v => 0.4999 <= v <= 0.5001) zs ->
  exists s, g11 zs = Some s /\ 0 <= s <= INR (length zs) * 0.00000001.
Proof.
  unfold g11. induction 1 as [|v zs Hv _ (s & IH & B)].
  - exists 0. cbn. split; [reflexivity|lra].
  - cbn [msum bind]. rewrite IH. cbn [bind]. eexists. split; [reflexivity|]. cbn [length]. rewrite S_INR.
    assert (Q : 0 <= (v - 0.5) ^ 2 <= 0.00000001).
    { split; [apply pow2_ge_0|]. replace 0.00000001 with (0.0001 ^ 2) by (cbn; lra).
      rewrite <- !Rsqr_pow2. apply Rsqr_le_abs_1. rewrite (Rabs_right 0.0001) by lra. apply Rabs_le. lra. }
    lra.
Qed.

Lemma mid_cos v : 0.4999 <= v <= 0.5001 -> 0 <= cos (v * PI / 2) <= 0.709.
Proof.
  intros H. pose proof pi_close as P.
  assert (A : 0.7848 <= v * PI / 2) by nra. assert (B : v * PI / 2 <= 0.788) by nra.
  split; [apply cos_ge_0; lra|].
  apply Rle_trans with (cos 0.7848); [apply cos_decr_1; lra|].
  eapply Rle_trans; [apply cos_upper; lra|]. cbn. lra.
Qed.
Lemma mid_sin v : 0.4999 <= v <= 0.5001 -> 0 <= sin v <= 0.48.
Proof.
  intros H. pose proof pi_close as P. split; [apply sin_ge_0; lra|].
  apply Rle_trans with (sin 0.5001); [apply sin_incr_1; lra|].
  eapply Rle_trans; [apply sin_upper5; lra|]. cbn. lra.
Qed.

Lemma mprod_bound A (f : A -> option R) b l : 0 <= b -> l <> [] ->
  (forall a, In a l -> exists v, f a = Some v /\ 0 <= v <= b) ->
  exists r, mprod f l = Some r /\ 0 <= r <= b ^ length l.
Proof.
  intros Hb. induction l as [|a l IH]; intros N H; [congruence|].
  destruct (H a) as (v & Ev & Bv); [now left|]. destruct l as [|c l].
  - exists v. split; [exact Ev|]. cbn. lra.
  - destruct IH as (r & Er & Br); [discriminate|intros d Hd; apply H; now right|].
    cbn [mprod] in *. rewrite Ev, Er. cbn [bind]. eexists. split; [reflexivity|].
    cbn [length] in *. cbn [pow] in *. split; [nra|].
    apply Rmult_le_compat; tauto.
Qed.

Lemma mid_cos_part zb m : (m <= length zb)%nat -> Forall (fun v => 0.4999 <= v <= 0.5001) zb -> (1 <= length zb)%nat ->
  exists c, base_fit_cos zb m = Some c /\ 0 <= c <= 0.709 ^ m.
Proof.
  intros H F H1. unfold base_fit_cos. rewrite Forall_forall in F.
  assert (G : forall i, (i < length zb)%nat -> exists v, (let* v := get zb i in Some (cos (v * PI / 2))) = Some v /\ 0 <= v <= 0.709).
  { intros i Hi. destruct (get_in zb i Hi) as (v & E). rewrite E. cbn [bind]. eexists. split; [reflexivity|].
    apply mid_cos, F. eapply in_get, E. }
  destruct (Nat.ltb_spec 1 m).
  - destruct (mprod_bound nat (fun i => let* v := get zb i in Some (cos (v * PI / 2))) 0.709 (seq 0 m)) as (r & E & B).
    + lra.
    + destruct m; [lia|discriminate].
    + intros i Hi. apply in_seq in Hi. apply G. lia.
    + rewrite seq_length in B. eauto.
  - destruct (Nat.eqb_spec m 1) as [->|N].
    + destruct (G 0%nat ltac:(lia)) as (v & E & B). exists v. split; [exact E|]. cbn. lra.
    + replace m with 0%nat by lia. exists 1. split; [reflexivity|]. cbn. lra.
Qed.

Lemma mid_up gv zb m : (1 <= m <= 5)%nat -> (5 <= length zb)%nat -> 0 <= gv <= 0.000001 ->
  Forall (fun v => 0.4999 <= v <= 0.5001) zb ->
  exists v, base_fit_up gv zb m = Some v /\ v <= 1.00001 * (0.709 ^ (m - 1) * (if Nat.ltb m 5 then 0.48 else 1)) + 1.
Proof.
  intros Hm Hl Hg F. unfold base_fit_up. destruct (mid_cos_part zb (m - 1)) as (c & -> & Bc); [lia|assumption|lia|].
  cbn [bind]. assert (S : exists s, (if Nat.ltb m 5 then let* v := get zb (m - 1) in Some (sin v) else Some 1) = Some s /\
    0 <= s <= (if Nat.ltb m 5 then 0.48 else 1)).
  { destruct (Nat.ltb_spec m 5).
    - destruct (get_in zb (m - 1) ltac:(lia)) as (v & E). rewrite E. cbn [bind]. eexists. split; [reflexivity|].
      apply mid_sin. rewrite Forall_forall in F. apply F. eapply in_get, E.
    - exists 1. split; [reflexivity|lra]. }
  destruct S as (s & -> & Bs). cbn [bind]. eexists. split; [reflexivity|].
  set (B := if Nat.ltb m 5 then 0.48 else 1) in *. set (C := 0.709 ^ (m - 1)) in *.
  assert (c * s <= C * B) by (apply Rmult_le_compat; tauto).
  assert (0 <= c * s) by (apply Rmult_le_pos; tauto). rewrite Rmult_assoc. nra.
Qed.

Lemma bounds_checked : forallb (fun t => let '((lo, hi), v) := t in (lo * 10 <=? v)%Z && (v <=? hi * 10)%Z)%bool
  (combine (combine lower_bounds upper_bounds) middle) = true /\
  length lower_bounds = 30%nat /\ length upper_bounds = 30%nat.
Proof. repeat split; vm_compute; reflexivity. Qed.

Lemma middle_adm front : admissible (UF11 front) (scaled 10000 middle).
Proof.
  unfold admissible, UF11, rotated. cbn [p_dims].
  destruct bounds_checked as (B & L1 & L2). revert B L1 L2.
  assert (L3 : length middle = 30%nat) by reflexivity. revert L3.
  generalize 30%nat. generalize lower_bounds upper_bounds middle.
  intros lo hi v n. revert lo hi v.
  induction n as [|n IH]; intros [|l lo] [|h hi] [|k v] L3 B L1 L2; cbn in L1, L2, L3; try lia; cbn; [constructor|].
  cbn in B. apply andb_prop in B. destruct B as [B1 B2]. apply andb_prop in B1. destruct B1 as [B0 B1].
  constructor; [|apply IH; try lia; assumption].
  cbn. apply Z.leb_le, IZR_le in B0. apply Z.leb_le, IZR_le in B1. rewrite mult_IZR in B0, B1. lra.
Qed.

(** Line 4740 of problems/UF11/R2_DTLZ2_M5.dat. *)
Definition line_4740 : list R := [1.5640030; 1.6181911; 1.3396089; 1.2757324; 1.3292077].

Lemma UF11_dominated front : exists f, attainable (UF11 front) f /\ better f line_4740.
Proof.
  destruct middle_zs as (zs & Ez & L & B).
  assert (Bz : Forall (fun v => 0 <= v <= 1) zs) by (eapply Forall_impl; [|exact B]; cbn; intros; lra).
  destruct (g_small zs B) as (gv & Eg & Bg). rewrite L in Bg.
  assert (Hg : 0 <= gv <= 0.000001) by (rewrite INR_IZR_INZ in Bg; cbn in Bg; lra).
  assert (NN : all_non_negative zs = true).
  { unfold all_non_negative. apply forallb_forall. intros v Hv. rewrite Forall_forall in Bz. specialize (Bz v Hv).
    destruct (Rlt_dec v 0); [lra|reflexivity]. }
  assert (F : forall m, base_fit11 (map (scaled 10000) uf11_matrix) (scaled 1000 uf11_lambdas) (scaled 10000 middle) m
     = base_fit_up gv zs m).
  { intros m. unfold base_fit11. rewrite Ez. cbn [bind]. rewrite z_bis_same; [|assumption|unfold scaled; rewrite map_length, L; cbn [length uf11_lambdas]; lia].
    cbn [bind]. rewrite Eg. cbn [bind]. now rewrite NN. }
  assert (Hl : (5 <= length zs)%nat) by lia.
  destruct (mid_up gv zs 1 ltac:(lia) Hl Hg B) as (f1 & E1 & B1).
  destruct (mid_up gv zs 2 ltac:(lia) Hl Hg B) as (f2 & E2 & B2).
  destruct (mid_up gv zs 3 ltac:(lia) Hl Hg B) as (f3 & E3 & B3).
  destruct (mid_up gv zs 4 ltac:(lia) Hl Hg B) as (f4 & E4 & B4).
  destruct (mid_up gv zs 5 ltac:(lia) Hl Hg B) as (f5 & E5 & B5).
  cbn in B1, B2, B3, B4, B5.
  exists [f1; f2; f3; f4; f5]. split.
  - exists (scaled 10000 middle). split; [apply middle_adm|].
    unfold evaluates, UF11, rotated. cbn [p_fits seq map]. rewrite !F, E1, E2, E3, E4, E5. reflexivity.
  - split.
    + unfold line_4740. repeat constructor; lra.
    + unfold line_4740. intros E. injection E as E _ _ _ _. lra.
Qed.
