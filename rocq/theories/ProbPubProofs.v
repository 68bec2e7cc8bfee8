(** Lemmas: the objectives of problems/ against the published test functions. *)
From Coq Require Import Reals List Lra Lia Psatz.
From Verif Require Import ProbModel ProbSpec ProbProofs ProbCurve ProbMore ProbPubSpec.
Import ListNotations.
Local Open Scope R_scope.

(** ** Sums and products *)

Lemma msum_ok A (f : A -> option R) (g : A -> R) l :
  (forall a, In a l -> f a = Some (g a)) -> msum f l = Some (sum_over l g).
Proof.
  induction l as [|a r IH]; intros H; [reflexivity|]. cbn [msum].
  rewrite (H a (or_introl eq_refl)), IH by (intros b Hb; apply H; now right). reflexivity.
Qed.

Lemma mprod_ok A (f : A -> option R) (g : A -> R) l :
  l <> [] -> (forall a, In a l -> f a = Some (g a)) -> mprod f l = Some (prod_over l g).
Proof.
  induction l as [|a r IH]; intros N H; [contradiction|].
  destruct r as [|b r].
  - cbn. rewrite (H a (or_introl eq_refl)). f_equal. ring.
  - cbn [mprod]. rewrite (H a (or_introl eq_refl)).
    assert (Es : mprod f (b :: r) = Some (prod_over (b :: r) g))
      by (apply IH; [discriminate|intros c Hc; apply H; now right]).
    cbn [mprod] in Es. rewrite Es. reflexivity.
Qed.

Lemma sum_over_map A B (h : A -> B) (g : B -> R) l :
  sum_over (map h l) g = sum_over l (fun a => g (h a)).
Proof. induction l as [|a r IH]; [reflexivity|]. cbn. f_equal. exact IH. Qed.

Lemma prod_over_map A B (h : A -> B) (g : B -> R) l :
  prod_over (map h l) g = prod_over l (fun a => g (h a)).
Proof. induction l as [|a r IH]; [reflexivity|]. cbn. f_equal. exact IH. Qed.

Lemma sum_over_ext A (f g : A -> R) l :
  (forall a, In a l -> f a = g a) -> sum_over l f = sum_over l g.
Proof.
  induction l as [|a r IH]; intros H; [reflexivity|]. cbn.
  rewrite (H a (or_introl eq_refl)). f_equal. apply IH. intros b Hb. apply H. now right.
Qed.

Lemma combine_self A B (h : A -> B) l : combine (map h l) l = map (fun a => (h a, a)) l.
Proof. induction l as [|a r IH]; [reflexivity|]. cbn. now rewrite IH. Qed.

Lemma get_variable x j : (1 <= j <= length x)%nat -> get x (j - 1) = Some (variable x j).
Proof. intros H. unfold get, variable. apply nth_error_nth'. lia. Qed.

Lemma get_first x : (1 <= length x)%nat -> get x 0 = Some (variable x 1).
Proof. intros H. apply (get_variable x 1). lia. Qed.
Lemma get_second x : (2 <= length x)%nat -> get x 1 = Some (variable x 2).
Proof. intros H. apply (get_variable x 2). lia. Qed.

Lemma adm_variable P x j d :
  admissible P x -> (1 <= j)%nat -> nth_error (p_dims P) (j - 1) = Some d ->
  fst d <= variable x j <= snd d.
Proof.
  intros H Hj E. destruct (adm_get _ _ _ _ H E) as (v & G & B).
  unfold variable. unfold get in G. now rewrite (nth_error_nth _ _ _ G).
Qed.

(** the index sets *)
Lemma odds_eq n : odd_j n = odds n.
Proof.
  unfold odd_j, odds, range. replace (S n - 2)%nat with (n - 1)%nat by lia.
  apply filter_ext. intros j. rewrite <- Nat.bit0_mod, Nat.bit0_odd.
  now destruct (Nat.odd j).
Qed.
Lemma evens_eq n : even_j n = evens n.
Proof.
  unfold even_j, evens, range. replace (S n - 2)%nat with (n - 1)%nat by lia.
  apply filter_ext. intros j. rewrite <- Nat.bit0_mod, Nat.bit0_odd, <- Nat.negb_odd.
  now destruct (Nat.odd j).
Qed.
Lemma others_eq : j1 30 = others 30 1 /\ j2 30 = others 30 2 /\ j3 30 = others 30 0.
Proof. split; [|split]; vm_compute; reflexivity. Qed.

Lemma in_odds n j : In j (odds n) -> (2 <= j <= n)%nat.
Proof. rewrite <- odds_eq. apply in_odd_j. Qed.
Lemma in_evens n j : In j (evens n) -> (2 <= j <= n)%nat.
Proof. rewrite <- evens_eq. apply in_even_j. Qed.

(** a list of indices within 2..n, not empty *)
Definition indices (n : nat) (J : list nat) : Prop :=
  J <> [] /\ forall j, In j J -> (1 <= j <= n)%nat.
Lemma odds_indices n : (3 <= n)%nat -> indices n (odds n).
Proof.
  intros H. split.
  - assert (I : In 3%nat (odds n)).
    { apply filter_In. split; [apply in_seq; lia|reflexivity]. }
    intros E. now rewrite E in I.
  - intros j Hj. apply in_odds in Hj. lia.
Qed.
Lemma evens_indices n : (3 <= n)%nat -> indices n (evens n).
Proof.
  intros H. split.
  - assert (I : In 2%nat (evens n)).
    { apply filter_In. split; [apply in_seq; lia|reflexivity]. }
    intros E. now rewrite E in I.
  - intros j Hj. apply in_evens in Hj. lia.
Qed.
Lemma in_others k j : In j (others 30 k) -> (1 <= j <= 30)%nat.
Proof.
  unfold others, range. intros H. apply filter_In in H. destruct H as [H _].
  apply in_seq in H. lia.
Qed.
Lemma others_length k : (k <= 2)%nat -> exists m, length (others 30 k) = S m.
Proof.
  intros H. destruct k as [|[|[|k]]]; [| | |lia]; eexists; vm_compute; reflexivity.
Qed.
Lemma others_indices k : (k <= 2)%nat -> indices 30 (others 30 k).
Proof.
  intros H. split; [|apply in_others]. destruct (others_length k H) as (m & E).
  intros N. rewrite N in E. discriminate E.
Qed.

Lemma size_pos n J : indices n J -> INR (length J) <> 0.
Proof. intros [N _]. destruct J; [contradiction|]. apply not_0_INR. discriminate. Qed.

Lemma power_ok x a : 0 <= x -> 0 < a -> py_pow x a = Some (power x a).
Proof. intros. now apply pow_ok. Qed.

Lemma yj_ok n x j : length x = n -> (1 <= j <= n)%nat ->
  yj n x j = Some (centred n (variable x) j).
Proof.
  intros L H. unfold yj. rewrite get_first, get_variable by lia. reflexivity.
Qed.

(** ** UF1-UF7 *)

Lemma uf1_base_ok x J : length x = 30%nat -> indices 30 J ->
  uf1_base x J = Some (uf1_term 30 (variable x) J).
Proof.
  intros L I. unfold uf1_base. rewrite div_ok by now apply (size_pos 30). cbn [bind].
  rewrite (msum_ok _ _ (fun j => centred 30 (variable x) j ^ 2)).
  - reflexivity.
  - intros j Hj. rewrite yj_ok by (try assumption; now apply I). reflexivity.
Qed.

Lemma uf7_base_ok x J : length x = 30%nat -> indices 30 J ->
  uf7_base x J = Some (uf1_term 30 (variable x) J).
Proof.
  intros L I. unfold uf7_base.
  rewrite (msum_ok _ _ (fun j => centred 30 (variable x) j ^ 2)).
  - cbn [bind]. rewrite div_ok by now apply (size_pos 30). f_equal. unfold uf1_term, size.
    field. now apply (size_pos 30).
  - intros j Hj. rewrite yj_ok by (try assumption; now apply I). reflexivity.
Qed.

Lemma uf2_base_ok x J trig : length x = 30%nat -> indices 30 J ->
  uf2_base x J trig = Some (uf2_term 30 (variable x) J trig).
Proof.
  intros L I. unfold uf2_base. rewrite div_ok by now apply (size_pos 30). cbn [bind].
  rewrite (msum_ok _ _ (fun j => uf2_y 30 (variable x) trig j ^ 2)).
  - reflexivity.
  - intros j Hj. apply I in Hj. rewrite get_first, get_variable by lia. cbn [bind].
    unfold uf2_y, uf2_centre. rewrite INR30. reflexivity.
Qed.

Lemma uf4_base_ok x J : length x = 30%nat -> indices 30 J ->
  uf4_base x J = Some (uf4_term 30 (variable x) J).
Proof.
  intros L I. unfold uf4_base.
  rewrite (msum_ok _ _ (fun j => uf4_shape (centred 30 (variable x) j))).
  - cbn [bind]. rewrite div_ok by now apply (size_pos 30). f_equal. unfold uf4_term, size.
    field. now apply (size_pos 30).
  - intros j Hj. rewrite yj_ok by (try assumption; now apply I). cbn [bind]. unfold uf4_h.
    rewrite div_ok; [reflexivity|].
    pose proof (exp_pos (2 * Rabs (centred 30 (variable x) j))). lra.
Qed.

Lemma sum_prod_ok n (y : nat -> option R) (z : nat -> R) J : indices n J ->
  (forall j, In j J -> y j = Some (z j)) ->
  sum_prod_base y J = Some (multimodal z J).
Proof.
  intros I H. unfold sum_prod_base. rewrite (mmap_ok _ _ _ z) by assumption. cbn [bind].
  rewrite (msum_ok _ _ (fun v => v ^ 2)) by reflexivity. cbn [bind].
  rewrite combine_self.
  rewrite (mprod_ok _ _ (fun vj => cos (20 * fst vj * PI / sqrt (INR (snd vj))))).
  - cbn [bind]. rewrite div_ok by now apply (size_pos n). f_equal.
    rewrite sum_over_map, prod_over_map. cbn [fst snd]. unfold multimodal, size.
    field. now apply (size_pos n).
  - intros E. apply (proj1 I). now apply map_eq_nil in E.
  - intros [v j] Hv. apply in_map_iff in Hv. destruct Hv as (j' & E & Hj). injection E as <- <-.
    cbn [fst snd]. apply I in Hj. assert (P : 0 < INR j') by (apply lt_0_INR; lia).
    rewrite sqrt_ok by lra. cbn [bind]. rewrite div_ok; [reflexivity|].
    pose proof (sqrt_lt_R0 _ P). lra.
Qed.

Lemma uf3_y_ok x j : length x = 30%nat -> 0 <= variable x 1 -> (2 <= j <= 30)%nat ->
  uf3_y x j = Some (uf3_dist 30 (variable x) j).
Proof.
  intros L H Hj. unfold uf3_y. rewrite get_first, get_variable by lia. cbn [bind].
  rewrite power_ok; [reflexivity|assumption|].
  rewrite INR30. assert (2 <= INR j) by (replace 2 with (INR 2) by (cbn; lra); apply le_INR; lia).
  assert (0 <= 3 * (INR j - 2) / (30 - 2)) by lra. lra.
Qed.

Ltac first_var H := let B := fresh "B" in
  pose proof (adm_variable _ _ 1 _ H (le_n 1) eq_refl) as B; cbn [fst snd] in B.
Ltac two_values := unfold evaluates; cbn [map p_fits]; f_equal; [|f_equal].

Lemma UF1_published x : admissible UF1 x -> evaluates UF1 x (uf1 30 (variable x)).
Proof.
  intros H. pose proof (adm_length _ _ H) as L. cbn [UF1 p_dims length] in L.
  rewrite repeat_length in L. first_var H.
  unfold evaluates. cbn [UF1 p_fits map uf1]. rewrite odds_eq, evens_eq, get_first by lia.
  cbn [bind]. rewrite sqrt_ok by lra. cbn [bind].
  rewrite !uf1_base_ok by (try assumption; first [apply odds_indices|apply evens_indices]; lia).
  reflexivity.
Qed.

Lemma UF2_published x : admissible UF2 x -> evaluates UF2 x (uf2 30 (variable x)).
Proof.
  intros H. pose proof (adm_length _ _ H) as L. cbn [UF2 p_dims length] in L.
  rewrite repeat_length in L. first_var H.
  unfold evaluates. cbn [UF2 p_fits map uf2]. rewrite odds_eq, evens_eq, get_first by lia.
  cbn [bind]. rewrite sqrt_ok by lra. cbn [bind].
  rewrite !uf2_base_ok by (try assumption; first [apply odds_indices|apply evens_indices]; lia).
  reflexivity.
Qed.

Lemma UF3_published x : admissible UF3 x -> evaluates UF3 x (uf3 30 (variable x)).
Proof.
  intros H. pose proof (adm_length _ _ H) as L. cbn [UF3 p_dims length] in L.
  rewrite repeat_length in L. first_var H.
  unfold evaluates. cbn [UF3 p_fits map uf3]. rewrite odds_eq, evens_eq, get_first by lia.
  cbn [bind]. rewrite sqrt_ok by lra. cbn [bind].
  rewrite (sum_prod_ok 30 _ (uf3_dist 30 (variable x)) (odds 30)).
  - rewrite (sum_prod_ok 30 _ (uf3_dist 30 (variable x)) (evens 30)).
    + reflexivity.
    + apply evens_indices. lia.
    + intros j Hj. apply in_evens in Hj. apply uf3_y_ok; [assumption|lra|lia].
  - apply odds_indices. lia.
  - intros j Hj. apply in_odds in Hj. apply uf3_y_ok; [assumption|lra|lia].
Qed.

Lemma UF4_published x : admissible UF4 x -> evaluates UF4 x (uf4 30 (variable x)).
Proof.
  intros H. pose proof (adm_length _ _ H) as L. cbn [UF4 p_dims length] in L.
  rewrite repeat_length in L.
  unfold evaluates. cbn [UF4 p_fits map uf4]. rewrite odds_eq, evens_eq, get_first by lia.
  cbn [bind].
  rewrite !uf4_base_ok by (try assumption; first [apply odds_indices|apply evens_indices]; lia).
  reflexivity.
Qed.

Lemma uf5_base_ok x J : length x = 10%nat -> indices 10 J ->
  uf5_base x J = Some (uf5_ripple (variable x) 10 0.1 + uf5_term 10 (variable x) J).
Proof.
  intros L I. unfold uf5_base. rewrite get_first by lia. cbn [bind].
  rewrite (msum_ok _ _ (fun j => uf5_shape (centred 10 (variable x) j))).
  - cbn [bind]. rewrite div_ok by now apply (size_pos 10). cbn [bind]. f_equal.
    unfold uf5_ripple, uf5_term, size. f_equal. field. now apply (size_pos 10).
  - intros j Hj. rewrite yj_ok by (try assumption; now apply I). reflexivity.
Qed.

Lemma UF5_published x : admissible UF5 x -> evaluates UF5 x (uf5 10 (variable x) 10 0.1).
Proof.
  intros H. pose proof (adm_length _ _ H) as L. cbn [UF5 p_dims length] in L.
  rewrite repeat_length in L.
  unfold evaluates. cbn [UF5 p_fits map uf5]. rewrite odds_eq, evens_eq, get_first by lia.
  cbn [bind].
  rewrite !uf5_base_ok by (try assumption; first [apply odds_indices|apply evens_indices]; lia).
  cbn [bind map]. now rewrite !Rplus_assoc.
Qed.

Lemma UF6_published x : admissible UF6 x -> evaluates UF6 x (uf6 30 (variable x) 30 0.1).
Proof.
  intros H. pose proof (adm_length _ _ H) as L. cbn [UF6 p_dims length] in L.
  rewrite repeat_length in L.
  assert (G : forall J, indices 30 J -> uf6_base x J =
    Some (uf6_gap (variable x) 30 0.1 + multimodal (centred 30 (variable x)) J)).
  { intros J I. unfold uf6_base. rewrite get_first by lia. cbn [bind].
    rewrite (sum_prod_ok 30 _ (centred 30 (variable x))); [reflexivity|assumption|].
    intros j Hj. rewrite yj_ok by (try assumption; now apply I). reflexivity. }
  unfold evaluates. cbn [UF6 p_fits map uf6]. rewrite odds_eq, evens_eq, get_first by lia.
  cbn [bind].
  rewrite !G by (first [apply odds_indices|apply evens_indices]; lia).
  cbn [bind map]. now rewrite !Rplus_assoc.
Qed.

Lemma UF7_published x : admissible UF7 x -> evaluates UF7 x (uf7 30 (variable x)).
Proof.
  intros H. pose proof (adm_length _ _ H) as L. cbn [UF7 p_dims length] in L.
  rewrite repeat_length in L. first_var H.
  unfold evaluates. cbn [UF7 p_fits map uf7]. rewrite odds_eq, evens_eq, get_first by lia.
  cbn [bind]. replace 0.2 with (1 / 5) by lra. rewrite power_ok by lra. cbn [bind].
  rewrite !uf7_base_ok by (try assumption; first [apply odds_indices|apply evens_indices]; lia).
  reflexivity.
Qed.

(** ** UF8-UF10 *)

Lemma y3_ok x j : length x = 30%nat -> (1 <= j <= 30)%nat ->
  y3 x j = Some (centred3 30 (variable x) j).
Proof.
  intros L H. unfold y3. rewrite get_first, get_second, get_variable by lia. cbn [bind].
  unfold centred3. rewrite INR30. reflexivity.
Qed.

Lemma share_gen (h : R -> R) x J : length x = 30%nat -> indices 30 J ->
  bind (msum (fun j => let* y := y3 x j in Some (h y)) J)
    (fun s => py_div (2 * s) (INR (length J)))
  = Some (2 / size J * sum_over J (fun j => h (centred3 30 (variable x) j))).
Proof.
  intros L I.
  rewrite (msum_ok _ _ (fun j => h (centred3 30 (variable x) j))).
  - cbn [bind]. rewrite div_ok by now apply (size_pos 30). f_equal. unfold size.
    field. now apply (size_pos 30).
  - intros j Hj. rewrite y3_ok by (try assumption; now apply I). reflexivity.
Qed.
Lemma share_ok (h : R -> R) x k : length x = 30%nat -> (k <= 2)%nat ->
  bind (msum (fun j => let* y := y3 x j in Some (h y)) (others 30 k))
    (fun s => py_div (2 * s) (INR (length (others 30 k))))
  = Some (share3 30 (variable x) (others 30) h k).
Proof.
  intros L K. unfold share3. exact (share_gen h x (others 30 k) L (others_indices k K)).
Qed.

Lemma sphere_published (base : list R -> list nat -> option R) h x :
  (forall x J, base x J = bind (msum (fun j => let* y := y3 x j in Some (h y)) J)
                            (fun s => py_div (2 * s) (INR (length J)))) ->
  admissible (sphere_problem base) x ->
  evaluates (sphere_problem base) x (sphere 30 (variable x) (others 30) h).
Proof.
  intros E H. pose proof (adm_length _ _ H) as L. cbn [sphere_problem p_dims app length] in L.
  rewrite repeat_length in L. destruct others_eq as (E1 & E2 & E3).
  unfold evaluates. cbn [sphere_problem p_fits map sphere].
  rewrite get_first, get_second by lia. cbn [bind].
  rewrite E1, E2, E3, !E, !share_ok by (try assumption; lia). reflexivity.
Qed.

Lemma UF8_published x : admissible UF8 x -> evaluates UF8 x (uf8 30 (variable x) (others 30)).
Proof. apply sphere_published. reflexivity. Qed.
Lemma UF10_published x : admissible UF10 x -> evaluates UF10 x (uf10 30 (variable x) (others 30)).
Proof.
  apply (sphere_published _ (fun y => 4 * y ^ 2 - cos (8 * PI * y) + 1)). reflexivity.
Qed.
Lemma UF9_published x : admissible UF9 x -> evaluates UF9 x (uf9 30 (variable x) (others 30) 0.1).
Proof.
  intros H. pose proof (adm_length _ _ H) as L. cbn [UF9 p_dims app length] in L.
  rewrite repeat_length in L. destruct others_eq as (E1 & E2 & E3).
  unfold evaluates. cbn [UF9 p_fits map uf9].
  rewrite get_first, get_second by lia. cbn [bind]. unfold uf8_base.
  rewrite E1, E2, E3, !(share_ok (fun y => y ^ 2)) by (try assumption; lia). reflexivity.
Qed.

(** ** ZDT *)

Lemma variables_from k x : map (fun j => nth (j - k) x 0) (seq k (length x)) = x.
Proof.
  revert k. induction x as [|a x IH]; intros k; [reflexivity|]. cbn [length seq map].
  rewrite Nat.sub_diag. cbn [nth]. f_equal.
  transitivity (map (fun j => nth (j - S k) x 0) (seq (S k) (length x))); [|apply IH].
  apply map_ext_in. intros j Hj. apply in_seq in Hj.
  replace (j - k)%nat with (S (j - S k)) by lia. reflexivity.
Qed.
Lemma variables x : map (variable x) (range 1 (length x)) = x.
Proof. unfold range. replace (S (length x) - 1)%nat with (length x) by lia. apply variables_from. Qed.
Lemma variables_tail x : map (variable x) (range 2 (length x)) = tl x.
Proof.
  destruct x as [|a x]; [reflexivity|]. pose proof (variables (a :: x)) as V.
  unfold range in *. cbn [length] in *. replace (S (S (length x)) - 1)%nat with (S (length x)) in V by lia.
  cbn [seq map] in V. injection V as V. cbn [tl].
  replace (S (S (length x)) - 2)%nat with (length x) by lia. exact V.
Qed.
Lemma sum_variables x n (f : R -> R) : length x = n ->
  sum_over (range 2 n) (fun j => f (variable x j)) = sum_over (tl x) f.
Proof. intros <-. rewrite <- sum_over_map, variables_tail. reflexivity. Qed.

Lemma sum_plain x n : length x = n ->
  sum_over (range 2 n) (variable x) = sum_over (tl x) (fun v => v).
Proof. exact (sum_variables x n (fun v => v)). Qed.

Lemma sum_bounds (r : list R) lo hi : Forall (fun v => lo <= v <= hi) r ->
  INR (length r) * lo <= sum_over r (fun v => v) <= INR (length r) * hi.
Proof.
  induction 1 as [|v r Hv _ IH]; [cbn; lra|].
  cbn [length sum_over fold_right]. rewrite S_INR.
  change (fold_right (fun a s => a + s) 0 r) with (sum_over r (fun v => v)). lra.
Qed.

Lemma apart_sqrt a y z d : 0 <= a <= 1 -> 1 <= y -> 1 <= z -> Rabs (y - z) <= d ->
  Rabs (y * (1 - sqrt (a / y)) - z * (1 - sqrt (a / z))) <= 2 * d.
Proof.
  intros Ha Hy Hz D.
  assert (E : forall t, 1 <= t -> t * sqrt (a / t) = sqrt a * sqrt t).
  { intros t Ht. rewrite sqrt_div_alt by lra. pose proof (sqrt_lt_R0 t ltac:(lra)) as P.
    rewrite <- (sqrt_sqrt t) at 1 by lra. field. lra. }
  replace (y * (1 - sqrt (a / y)) - z * (1 - sqrt (a / z)))
    with ((y - z) - sqrt a * (sqrt y - sqrt z)).
  2:{ rewrite !Rmult_minus_distr_l, !Rmult_1_r, !E by assumption. ring. }
  assert (A : 0 <= sqrt a <= 1).
  { split; [apply sqrt_pos|]. rewrite <- sqrt_1. apply sqrt_le_1; lra. }
  assert (P : forall t, 1 <= t -> 1 <= sqrt t).
  { intros t Ht. rewrite <- sqrt_1. apply sqrt_le_1; lra. }
  pose proof (P y Hy) as Py. pose proof (P z Hz) as Pz.
  pose proof (sqrt_sqrt y ltac:(lra)) as Ey. pose proof (sqrt_sqrt z ltac:(lra)) as Ez.
  assert (F : Rabs (sqrt y - sqrt z) <= d).
  { replace (y - z) with ((sqrt y - sqrt z) * (sqrt y + sqrt z)) in D by nra.
    rewrite Rabs_mult, (Rabs_right (sqrt y + sqrt z)) in D by lra.
    pose proof (Rabs_pos (sqrt y - sqrt z)). nra. }
  eapply Rle_trans; [apply Rabs_triang|]. rewrite Rabs_Ropp, Rabs_mult, (Rabs_right (sqrt a)) by lra.
  pose proof (Rabs_pos (sqrt y - sqrt z)). nra.
Qed.

Lemma apart_square a y z d : 0 <= a <= 1 -> 1 <= y -> 1 <= z -> Rabs (y - z) <= d ->
  Rabs (y * (1 - (a / y) ^ 2) - z * (1 - (a / z) ^ 2)) <= 2 * d.
Proof.
  intros Ha Hy Hz D.
  replace (y * (1 - (a / y) ^ 2) - z * (1 - (a / z) ^ 2))
    with ((y - z) * (1 + a * a / (y * z))) by (field; lra).
  assert (Q : 0 <= a * a / (y * z) <= 1).
  { split.
    - apply Rmult_le_pos; [nra|]. left. apply Rinv_0_lt_compat. nra.
    - apply Rmult_le_reg_r with (y * z); [nra|]. unfold Rdiv. rewrite Rmult_assoc, Rinv_l by nra. nra. }
  rewrite Rabs_mult, (Rabs_right (1 + _)) by lra. pose proof (Rabs_pos (y - z)). nra.
Qed.

Lemma within_pair a b c eps : 0 <= eps -> Rabs (b - c) <= eps -> within eps [a; b] [a; c].
Proof.
  intros E H. apply Forall2_cons; [|apply Forall2_cons; [exact H|apply Forall2_nil]].
  unfold Rminus. rewrite Rplus_opp_r, Rabs_R0. exact E.
Qed.

Lemma adm_zdt P m x : p_dims P = repeat (0, 1) (S m) -> admissible P x ->
  length x = S m /\ 0 <= variable x 1 <= 1 /\
  0 <= sum_over (range 2 (S m)) (variable x) <= INR m.
Proof.
  intros D H. destruct (adm_tail 0 1 m P x D H) as (x0 & r & -> & B & L & F).
  split; [cbn; now rewrite L|]. split; [exact B|].
  rewrite (sum_plain (x0 :: r) (S m)) by (cbn; now rewrite L). cbn [tl].
  pose proof (sum_bounds r 0 1 F) as S. rewrite L in S. lra.
Qed.

Lemma ga_ok x n : length x = n ->
  ga (tl x) = Some (1 + 0.3103448275862069 * sum_over (range 2 n) (variable x)).
Proof.
  intros L. unfold ga. rewrite (msum_ok _ _ (fun v => v)) by reflexivity. cbn [bind].
  now rewrite (sum_plain x n).
Qed.

Lemma INR29 : INR 29 = 29.
Proof. rewrite INR_IZR_INZ. reflexivity. Qed.

Lemma zdt1_close x : 0 <= sum_over (range 2 30) (variable x) <= 29 ->
  1 <= 1 + 0.3103448275862069 * sum_over (range 2 30) (variable x) /\
  1 <= zdt1_g 30 (variable x) /\
  Rabs (1 + 0.3103448275862069 * sum_over (range 2 30) (variable x) - zdt1_g 30 (variable x))
    <= 1 / 5000000000000000.
Proof.
  unfold zdt1_g. rewrite INR30. set (s := sum_over _ _). intros S.
  split; [lra|]. split; [lra|].
  replace (1 + 0.3103448275862069 * s - (1 + 9 / (30 - 1) * s))
    with ((0.3103448275862069 - 9 / 29) * s) by lra.
  rewrite Rabs_right by (apply Rle_ge; apply Rmult_le_pos; lra).
  apply Rle_trans with ((0.3103448275862069 - 9 / 29) * 29); lra.
Qed.

Ltac give_pair :=
  match goal with |- exists f, [Some ?a; Some ?b] = _ /\ _ => exists [a; b] end;
  split; [reflexivity|].

Lemma ZDT1_published x : admissible ZDT1 x ->
  exists f, evaluates ZDT1 x f /\ within (1 / 1000000000000000) f (zdt1 30 (variable x)).
Proof.
  intros H. destruct (adm_zdt ZDT1 29 x eq_refl H) as (L & B & S). rewrite INR29 in S.
  destruct (zdt1_close x S) as (Y & Z & D).
  unfold evaluates. cbn [ZDT1 emoa p_fits map]. unfold subfit1, subfit2, f1a.
  rewrite get_first, (ga_ok x 30) by lia. cbn [bind].
  set (y := 1 + 0.3103448275862069 * sum_over (range 2 30) (variable x)) in *.
  unfold ha. rewrite div_ok by lra. cbn [bind].
  rewrite sqrt_ok by apply Rabs_pos. cbn [bind].
  give_pair. apply within_pair; [lra|].
  assert (Q : 0 <= variable x 1 / y).
  { apply Rmult_le_pos; [lra|]. left. apply Rinv_0_lt_compat. lra. }
  rewrite (Rabs_right (variable x 1 / y)) by lra.
  eapply Rle_trans; [apply apart_sqrt; [exact B|exact Y|exact Z|exact D]|]. lra.
Qed.

Lemma ZDT2_published x : admissible ZDT2 x ->
  exists f, evaluates ZDT2 x f /\ within (1 / 1000000000000000) f (zdt2 30 (variable x)).
Proof.
  intros H. destruct (adm_zdt ZDT2 29 x eq_refl H) as (L & B & S). rewrite INR29 in S.
  destruct (zdt1_close x S) as (Y & Z & D).
  unfold evaluates. cbn [ZDT2 emoa p_fits map]. unfold subfit1, subfit2, f1a.
  rewrite get_first, (ga_ok x 30) by lia. cbn [bind].
  set (y := 1 + 0.3103448275862069 * sum_over (range 2 30) (variable x)) in *.
  unfold hb. rewrite div_ok by lra. cbn [bind].
  give_pair. apply within_pair; [lra|].
  eapply Rle_trans; [apply apart_square; [exact B|exact Y|exact Z|exact D]|]. lra.
Qed.

Lemma ZDT3_published x : admissible ZDT3 x ->
  exists f, evaluates ZDT3 x f /\ within (1 / 1000000000000000) f (zdt3 30 (variable x)).
Proof.
  intros H. destruct (adm_zdt ZDT3 29 x eq_refl H) as (L & B & S). rewrite INR29 in S.
  destruct (zdt1_close x S) as (Y & Z & D).
  unfold evaluates. cbn [ZDT3 emoa p_fits map]. unfold subfit1, subfit2, f1a.
  rewrite get_first, (ga_ok x 30) by lia. cbn [bind].
  set (y := 1 + 0.3103448275862069 * sum_over (range 2 30) (variable x)) in *.
  unfold hc. rewrite div_ok by lra. cbn [bind].
  rewrite sqrt_ok by apply Rabs_pos. cbn [bind].
  give_pair. apply within_pair; [lra|].
  assert (Q : 0 <= variable x 1 / y).
  { apply Rmult_le_pos; [lra|]. left. apply Rinv_0_lt_compat. lra. }
  rewrite (Rabs_right (variable x 1 / y)) by lra.
  set (z := zdt1_g 30 (variable x)) in *. set (a := variable x 1) in *. set (w := sin (10 * PI * a)).
  replace (y * (1 - sqrt (a / y) - a / y * w) - z * (1 - sqrt (a / z) - a / z * w))
    with (y * (1 - sqrt (a / y)) - z * (1 - sqrt (a / z))) by (field; lra).
  eapply Rle_trans; [apply apart_sqrt; [exact B|exact Y|exact Z|exact D]|]. lra.
Qed.

Lemma INR10 : INR 10 = 10.
Proof. rewrite INR_IZR_INZ. reflexivity. Qed.

Lemma ZDT4_published x : admissible ZDT4 x -> evaluates ZDT4 x (zdt4 10 (variable x)).
Proof.
  intros H. destruct (adm_tail (-5) 5 9 ZDT4 x eq_refl H) as (x0 & r & E & B & L & F).
  assert (Lx : length x = 10%nat) by (rewrite E; cbn; now rewrite L).
  assert (V : variable x 1 = x0) by (rewrite E; reflexivity). rewrite <- V in B.
  assert (T : tl x = r) by (rewrite E; reflexivity).
  assert (G : gd (tl x) = Some (zdt4_g 10 (variable x))).
  { unfold gd. rewrite (msum_ok _ _ (fun v => v ^ 2 - 10 * cos (4 * PI * v))) by reflexivity.
    cbn [bind]. f_equal. unfold zdt4_g.
    rewrite (sum_variables x 10 (fun v => v ^ 2 - 10 * cos (4 * PI * v))) by assumption.
    rewrite INR10. lra. }
  assert (P : 1 <= zdt4_g 10 (variable x)).
  { unfold zdt4_g. rewrite (sum_variables x 10 (fun v => v ^ 2 - 10 * cos (4 * PI * v))) by assumption.
    rewrite T, INR10. assert (Q : forall l, - (10 * INR (length l))
      <= sum_over l (fun v : R => v ^ 2 - 10 * cos (4 * PI * v))).
    { clear. induction l as [|v l IH]; [cbn; lra|]. cbn [length sum_over fold_right].
      rewrite S_INR. pose proof (COS_bound (4 * PI * v)). pose proof (pow2_ge_0 v).
      unfold sum_over in IH. lra. }
    specialize (Q r). rewrite L in Q. replace (INR 9) with 9 in Q by (rewrite INR_IZR_INZ; reflexivity). lra. }
  unfold evaluates. cbn [ZDT4 emoa2 p_fits map]. unfold subfit1, subfit2, f1a.
  rewrite get_first, G by lia. cbn [bind]. unfold ha. rewrite div_ok by lra. cbn [bind].
  rewrite sqrt_ok by apply Rabs_pos. cbn [bind]. unfold zdt4, zdt. cbn [map].
  rewrite Rabs_right; [reflexivity|]. apply Rle_ge. apply Rmult_le_pos; [lra|].
  left. apply Rinv_0_lt_compat. lra.
Qed.

Lemma quarter_pow x : 0 < x -> Rpower x (1 / 4) ^ 4 = x.
Proof.
  intros H. rewrite <- Rpower_pow by apply exp_pos. rewrite Rpower_mult.
  replace (1 / 4 * INR 4) with 1 by (cbn; lra). now apply Rpower_1.
Qed.

Lemma zdt6_close s : 0 <= s <= 9 ->
  1 <= 1 + 5.19615 * power s 0.25 /\ 1 <= 1 + 9 * power (s / 9) (1 / 4) /\
  Rabs (1 + 5.19615 * power s 0.25 - (1 + 9 * power (s / 9) (1 / 4))) <= 1 / 50000.
Proof.
  intros S. replace 0.25 with (1 / 4) by lra. unfold power.
  destruct (Req_EM_T s 0) as [->|N].
  { destruct (Req_EM_T (0 / 9) 0); [|lra]. repeat split; try lra.
    rewrite Rabs_right; lra. }
  destruct (Req_EM_T (s / 9) 0); [lra|].
  assert (P : 0 < s) by lra.
  replace (s / 9) with (s * / 9) by reflexivity.
  rewrite <- Rpower_mult_distr by lra.
  set (r := Rpower s (1 / 4)). set (c := Rpower (/ 9) (1 / 4)).
  assert (R4 : r ^ 4 = s) by now apply quarter_pow.
  assert (C4 : c ^ 4 = / 9) by (apply quarter_pow; lra).
  assert (r0 : 0 < r) by apply exp_pos. assert (c0 : 0 < c) by apply exp_pos.
  assert (r1 : r <= 1.8).
  { apply Rnot_lt_le. intros Q. pose proof (pow_incr 1.8 r 4 ltac:(lra)). lra. }
  assert (c1 : 0.57735 <= c).
  { apply Rnot_lt_le. intros Q. pose proof (pow_incr c 0.57735 4 ltac:(lra)). lra. }
  assert (c2 : c <= 0.577351).
  { apply Rnot_lt_le. intros Q. pose proof (pow_incr 0.577351 c 4 ltac:(lra)). lra. }
  split; [nra|]. split; [pose proof (Rmult_lt_0_compat _ _ r0 c0); lra|].
  replace (1 + 5.19615 * r - (1 + 9 * (r * c))) with (- ((9 * c - 5.19615) * r)) by ring.
  rewrite Rabs_Ropp, Rabs_right by (apply Rle_ge; apply Rmult_le_pos; lra).
  apply Rle_trans with ((9 * 0.577351 - 5.19615) * 1.8); [apply Rmult_le_compat; lra|lra].
Qed.

Lemma f1e_unit t : 0 <= t <= 1 -> 0 <= f1e t <= 1.
Proof.
  intros H. unfold f1e.
  assert (E : 0 < exp (-4 * t) <= 1).
  { split; [apply exp_pos|]. rewrite <- exp_0. destruct (Req_dec t 0) as [->|N].
    - rewrite Rmult_0_r. lra.
    - left. apply exp_increasing. lra. }
  assert (S : 0 <= sin (6 * PI * t) ^ 6 <= 1).
  { pose proof (SIN_bound (6 * PI * t)) as B. set (w := sin (6 * PI * t)) in *.
    assert (Q : 0 <= w ^ 2 <= 1) by (split; [apply pow2_ge_0|nra]).
    replace (w ^ 6) with (w ^ 2 * w ^ 2 * w ^ 2) by ring. set (u := w ^ 2) in *.
    assert (0 <= u * u <= 1) by nra. nra. }
  nra.
Qed.

Lemma ZDT6_published x : admissible ZDT6 x ->
  exists f, evaluates ZDT6 x f /\ within (1 / 20000) f (zdt6 10 (variable x)).
Proof.
  intros H. destruct (adm_zdt ZDT6 9 x eq_refl H) as (L & B & S).
  replace (INR 9) with 9 in S by (rewrite INR_IZR_INZ; reflexivity).
  destruct (zdt6_close _ S) as (Y & Z & D).
  unfold evaluates. cbn [ZDT6 emoa p_fits map]. unfold subfit1, subfit2, ge.
  rewrite get_first by lia. cbn [bind].
  rewrite (msum_ok _ _ (fun v => v)) by reflexivity. cbn [bind].
  rewrite <- (sum_plain x 10) by lia.
  rewrite power_ok by lra. cbn [bind].
  unfold hb. rewrite div_ok by lra. cbn [bind].
  give_pair. unfold zdt6, zdt, zdt6_g.
  replace (INR 10 - 1) with 9 by (rewrite INR10; lra).
  change (zdt6_f1 (variable x)) with (f1e (variable x 1)).
  apply within_pair; [lra|].
  eapply Rle_trans; [apply apart_square; [now apply f1e_unit|exact Y|exact Z|exact D]|]. lra.
Qed.

(** ** Kursawe, Ackley *)

Lemma kursawe_published_ok x : admissible kursawe x ->
  evaluates kursawe x (kursawe_published 3 (variable x)).
Proof.
  intros H. pose proof (adm_length _ _ H) as L. cbn in L.
  destruct x as [|a [|b [|c [|d x]]]]; try discriminate L.
  unfold evaluates. cbn [kursawe p_fits map]. unfold kursawe_a, kursawe_b. cbn [combine tl].
  rewrite (msum_ok _ _ (fun p : R * R => -10 * exp (-0.2 * sqrt (fst p ^ 2 + snd p ^ 2)))).
  - rewrite (msum_ok _ _ (fun v => power (Rabs v) 0.8 + 5 * sin (v ^ 3))); [reflexivity|].
    intros v _. rewrite power_ok; [reflexivity|apply Rabs_pos|lra].
  - intros p _. rewrite sqrt_ok; [reflexivity|].
    pose proof (pow2_ge_0 (fst p)). pose proof (pow2_ge_0 (snd p)). lra.
Qed.

Lemma ackley_published_ok x : admissible ackley x ->
  evaluates ackley x [ackley_published 2 (variable x); ackley_published 2 (variable x)].
Proof.
  intros H. pose proof (adm_length _ _ H) as L. cbn in L.
  destruct x as [|a [|b [|d x]]]; try discriminate L.
  assert (E : ackley_fit [a; b] = Some (ackley_published 2 (variable [a; b]))).
  { unfold ackley_fit. cbn [get nth_error bind]. pose proof (pow2_ge_0 a). pose proof (pow2_ge_0 b).
    rewrite sqrt_ok by lra. cbn [bind]. f_equal. unfold ackley_published.
    cbn [range seq Nat.sub sum_over fold_right variable nth].
    replace (1 / INR 2 * (a ^ 2 + (b ^ 2 + 0))) with (0.5 * (a ^ 2 + b ^ 2)) by (cbn [INR]; lra).
    replace (1 / INR 2 * (cos (2 * PI * a) + (cos (2 * PI * b) + 0)))
      with (0.5 * (cos (2 * PI * a) + cos (2 * PI * b))) by (cbn [INR]; lra).
    reflexivity. }
  unfold evaluates. cbn [ackley p_fits map]. rewrite E. reflexivity.
Qed.

(** ** Where the program computes something else *)

Lemma UF6_other : exists x f, admissible UF6 x /\ evaluates UF6 x f /\
  f <> uf6 30 (variable x) 2 0.1.
Proof.
  exists (1 / 8 :: repeat 0 29). eexists.
  assert (A : admissible UF6 (1 / 8 :: repeat 0 29)).
  { constructor; [cbn; lra|]. cbn [repeat]. repeat (constructor; [cbn; lra|]). constructor. }
  split; [exact A|]. split; [apply UF6_published, A|].
  intros E. apply (f_equal (fun l => nth 0 l 0)) in E. unfold uf6 in E. cbn [nth] in E.
  apply Rplus_eq_reg_r in E. apply Rplus_eq_reg_l in E. rename E into G.
  unfold uf6_gap in G. change (variable (1 / 8 :: repeat 0 29) 1) with (1 / 8) in G.
  replace (2 * 30 * PI * (1 / 8)) with (- (PI / 2) + 2 * INR 4 * PI) in G by (cbn [INR]; lra).
  rewrite sin_period, sin_neg, sin_PI2 in G.
  replace (2 * 2 * PI * (1 / 8)) with (PI / 2) in G by lra. rewrite sin_PI2 in G.
  rewrite Rmax_left in G by lra. rewrite Rmax_right in G by lra. lra.
Qed.

(** the fourth variable 1, all others 0 *)
Definition spike : list R := 0 :: 0 :: 0 :: 1 :: repeat 0 26.

Lemma spike_admissible P : p_dims P = [(0, 1); (0, 1)] ++ repeat (-2, 2) 28 -> admissible P spike.
Proof.
  intros E. unfold admissible. rewrite E. unfold spike. cbn [app repeat].
  repeat (constructor; [cbn; lra|]). constructor.
Qed.

Lemma spike_share h : h 0 = 0 -> 0 < h 1 ->
  share3 30 (variable spike) (others 30) h 1 <> share3 30 (variable spike) (multiples 30) h 1.
Proof.
  intros H0 H1. unfold share3.
  assert (C : forall J, sum_over J (fun j => h (centred3 30 (variable spike) j))
    = sum_over J (fun j => h (variable spike j))).
  { intros J. apply sum_over_ext. intros j _. f_equal. unfold centred3.
    change (variable spike 2) with 0. ring. }
  rewrite !C.
  assert (A : sum_over (others 30 1) (fun j => h (variable spike j)) = 0).
  { transitivity (sum_over (others 30 1) (fun _ => 0)).
    - apply sum_over_ext. intros j Hj.
      change (others 30 1) with [3;5;6;8;9;11;12;14;15;17;18;20;21;23;24;26;27;29;30]%nat in Hj.
      cbn [In] in Hj. repeat (destruct Hj as [<-|Hj]; [exact H0|]). contradiction.
    - induction (others 30 1) as [|j r IH]; [reflexivity|]. cbn. unfold sum_over in IH. lra. }
  rewrite A, Rmult_0_r.
  change (multiples 30 1) with [4;7;10;13;16;19;22;25;28]%nat.
  cbn [sum_over fold_right]. unfold size. cbn [length].
  change (variable spike 4) with 1. 
  change (variable spike 7) with 0. change (variable spike 10) with 0.
  change (variable spike 13) with 0. change (variable spike 16) with 0.
  change (variable spike 19) with 0. change (variable spike 22) with 0.
  change (variable spike 25) with 0. change (variable spike 28) with 0.
  rewrite H0. replace (INR 9) with 9 by (rewrite INR_IZR_INZ; reflexivity). lra.
Qed.

Lemma UF8_other : exists x f, admissible UF8 x /\ evaluates UF8 x f /\
  f <> uf8 30 (variable x) (multiples 30).
Proof.
  exists spike. eexists.
  pose proof (spike_admissible UF8 eq_refl) as A.
  split; [exact A|]. split; [apply UF8_published, A|].
  intros E. apply (f_equal (fun l => nth 0 l 0)) in E. unfold uf8, sphere in E. cbn [nth] in E.
  apply Rplus_eq_reg_l in E.
  apply (spike_share (fun y => y ^ 2)); [ring|lra|exact E].
Qed.

Lemma UF9_other : exists x f, admissible UF9 x /\ evaluates UF9 x f /\
  f <> uf9 30 (variable x) (multiples 30) 0.1.
Proof.
  exists spike. eexists.
  pose proof (spike_admissible UF9 eq_refl) as A.
  split; [exact A|]. split; [apply UF9_published, A|].
  intros E. apply (f_equal (fun l => nth 0 l 0)) in E. unfold uf9 in E. cbn [nth] in E.
  apply Rplus_eq_reg_l in E.
  apply (spike_share (fun y => y ^ 2)); [ring|lra|exact E].
Qed.

Lemma UF10_other : exists x f, admissible UF10 x /\ evaluates UF10 x f /\
  f <> uf10 30 (variable x) (multiples 30).
Proof.
  exists spike. eexists.
  pose proof (spike_admissible UF10 eq_refl) as A.
  split; [exact A|]. split; [apply UF10_published, A|].
  intros E. apply (f_equal (fun l => nth 0 l 0)) in E. unfold uf10, sphere in E. cbn [nth] in E.
  apply Rplus_eq_reg_l in E.
  apply (spike_share (fun y => 4 * y ^ 2 - cos (8 * PI * y) + 1)); [| |exact E].
  - rewrite Rmult_0_r, cos_0. ring.
  - pose proof (COS_bound (8 * PI * 1)). lra.
Qed.
