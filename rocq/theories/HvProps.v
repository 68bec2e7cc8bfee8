(** Property theorems C22-C25: the hypervolume indicator. *)
From Verif Require Import Spec HvSpec DomModel DomProofs HvModel HvExact.
Local Open Scope Z_scope.

(** C22 - one and two objectives: any front, with duplicates, dominated points, points on or
    outside the reference point, or empty. *)
Theorem C22_exact_in_one_and_two_dimensions :
  forall (neg : Z) (ref : vec) (front : list vec),
    (length ref = 1%nat \/ length ref = 2%nat) -> (forall p, In p front -> length p = length ref) ->
    exists v, compute neg ref front = Some v /\ is_hypervolume ref front v.
Proof. intros neg ref front H Hd. apply exact_low; [lia | exact Hd | lia]. Qed.
Print Assumptions C22_exact_in_one_and_two_dimensions.

Example C22_front : compute (-1000) [10; 8] [[2; 5]; [2; 5]; [4; 3]; [1; 9]; [5; 5]; [10; 1]] = Some 36.
Proof. reflexivity. Qed.

(** C23 - three objectives, any front.  [neg] is the -1.0e308 with which the bounds start: no
    point lies that far below the reference point. *)
Theorem C23_exact_in_three_dimensions :
  forall (neg : Z) (ref : vec) (front : list vec),
    length ref = 3%nat -> (forall p, In p front -> length p = length ref) ->
    (forall p, In p front -> Forall2 (fun a r => neg <= a - r) p ref) ->
    exists v, compute neg ref front = Some v /\ is_hypervolume ref front v.
Proof. intros neg ref front H Hd Hn. apply exact_low; [lia | exact Hd | intros _; exact Hn]. Qed.
Print Assumptions C23_exact_in_three_dimensions.

Example C23_front : compute (-1000) [4; 4; 4] [[0; 2; 2]; [2; 0; 2]; [2; 2; 0]; [2; 2; 2]; [0; 2; 2]; [1; 4; 1]] = Some 32.
Proof. reflexivity. Qed.

(** Any number of objectives, when no point touches the boundary of the reference point and points
    that agree in the first objective are listed in lexicographic order (a point may be listed more
    than once).  Missing from the full property: other orders, for which it fails (below), and
    points on the boundary. *)
Theorem C23_exact_when_ties_are_in_order_partial :
  forall (neg : Z) (ref : vec) (front : list vec),
    ref <> [] -> (forall p, In p front -> length p = length ref) ->
    ties_in_order ref front ->
    (forall p, In p front -> Forall2 (fun a r => neg <= a - r) p ref) ->
    exists v, compute neg ref front = Some v /\ is_hypervolume ref front v.
Proof. intros neg ref front H Hd Hg Hn. apply compute_exact_ties; auto. Qed.
Print Assumptions C23_exact_when_ties_are_in_order_partial.

(** Two tied pairs, one of them a duplicate, and a dominated point. *)
Example C23_ties : ties_in_order [9; 9; 9; 9] [[1; 2; 3; 4]; [2; 3; 4; 1]; [1; 2; 4; 1]; [1; 2; 4; 1]; [0; 5; 5; 5]; [2; 3; 4; 8]].
Proof.
  split.
  - intros p Hp Hle. cbn in Hp. repeat (destruct Hp as [<-|Hp]; [repeat constructor; try lia | ]); contradiction.
  - repeat match goal with |- ForallOrdPairs _ _ => constructor | |- Forall _ _ => constructor end;
      intros; try discriminate; cbn; lia.
Qed.
Example C23_ties_value :
  compute (-1000) [9; 9; 9; 9] [[1; 2; 3; 4]; [2; 3; 4; 1]; [1; 2; 4; 1]; [1; 2; 4; 1]; [0; 5; 5; 5]; [2; 3; 4; 8]] = Some 2584.
Proof. vm_compute. reflexivity. Qed.

(** So the indicator is exact on every front that is listed lexicographically: for any front,
    [front'] is the same points (each as often) in that order. *)
Theorem C23_exact_after_sorting_partial :
  forall (neg : Z) (ref : vec) (front front' : list vec),
    ref <> [] -> (forall p, In p front -> length p = length ref) ->
    (forall p, In p front -> Forall2 Z.le p ref -> Forall2 Z.lt p ref) ->
    (forall p, In p front -> Forall2 (fun a r => neg <= a - r) p ref) ->
    Permutation front front' -> StronglySorted lex_le front' ->
    exists v, compute neg ref front' = Some v /\ is_hypervolume ref front v.
Proof.
  intros neg ref front front' H Hd Hi Hn HP Hs.
  assert (Hin : forall p, In p front' -> In p front) by (intros p; apply Permutation_in; symmetry; exact HP).
  destruct (compute_exact_ties neg ref front') as (v & E & Hv); auto.
  { right. apply sorted_ties; [|exact Hs]. intros p Hp. apply Hi, Hin, Hp. }
  exists v. split; [exact E|]. destruct Hv as (l & H1 & H2 & H3). exists l. split; [exact H1|]. split; [|exact H3].
  intros z. rewrite H2. split; intros (Hz & p & Hp & Hle); (split; [exact Hz|]); exists p; (split; [|exact Hle]).
  - apply Hin, Hp.
  - apply (Permutation_in _ HP), Hp.
Qed.
Print Assumptions C23_exact_after_sorting_partial.

(** The front with which the computation goes wrong below, sorted: its true hypervolume is 39. *)
Example C23_sorted :
  StronglySorted lex_le [[0; 2; 0; 0]; [0; 2; 0; 1]; [1; 0; 0; 2]] /\
  compute (-1000) [3; 3; 3; 3] [[0; 2; 0; 0]; [0; 2; 0; 1]; [1; 0; 0; 2]] = Some 39 /\
  compute (-1000) [3; 3; 3; 3] [[0; 2; 0; 1]; [0; 2; 0; 0]; [1; 0; 0; 2]] = Some 36.
Proof.
  split; [repeat match goal with |- StronglySorted _ _ => constructor | |- Forall _ _ => constructor end; cbn; lia|].
  split; vm_compute; reflexivity.
Qed.

(** In particular when no two points agree in the first objective... *)
Theorem C23_exact_when_first_objectives_differ_partial :
  forall (neg : Z) (ref : vec) (front : list vec),
    ref <> [] -> (forall p, In p front -> length p = length ref) ->
    separated ref front ->
    (forall p, In p front -> Forall2 (fun a r => neg <= a - r) p ref) ->
    exists v, compute neg ref front = Some v /\ is_hypervolume ref front v.
Proof. intros neg ref front H Hd Hg Hn. apply compute_exact_ties; auto. right. apply separated_ties, Hg. Qed.
Print Assumptions C23_exact_when_first_objectives_differ_partial.

Example C23_separated : separated [9; 9; 9; 9] [[3; 2; 2; 2]; [1; 2; 2; 3]; [2; 2; 2; 2]; [7; 7; 7; 10]].
Proof.
  split.
  - intros p Hp Hle. cbn in Hp. repeat (destruct Hp as [<-|Hp]; [repeat constructor; try lia | ]); try contradiction.
    repeat match goal with H : Forall2 _ _ _ |- _ => inversion H; clear H; subst end. lia.
  - repeat match goal with |- ForallOrdPairs _ _ => constructor | |- Forall _ _ => constructor end; intros; discriminate.
Qed.

(** ... or when no two points share any coordinate. *)
Theorem C23_exact_in_general_position_partial :
  forall (neg : Z) (ref : vec) (front : list vec),
    ref <> [] -> (forall p, In p front -> length p = length ref) ->
    general_position ref front ->
    (forall p, In p front -> Forall2 (fun a r => neg <= a - r) p ref) ->
    exists v, compute neg ref front = Some v /\ is_hypervolume ref front v.
Proof. intros neg ref front H Hd Hg Hn. apply compute_exact; auto. Qed.
Print Assumptions C23_exact_in_general_position_partial.

Example C23_position : general_position [9; 9; 9; 9] [[1; 2; 3; 4]; [2; 3; 4; 1]; [3; 4; 1; 2]; [4; 1; 2; 3]; [7; 7; 7; 10]].
Proof.
  split.
  - intros p Hp Hle. cbn in Hp. repeat (destruct Hp as [<-|Hp]; [repeat constructor; try lia | ]); try contradiction.
    repeat match goal with H : Forall2 _ _ _ |- _ => inversion H; clear H; subst end. lia.
  - repeat constructor; try discriminate; intros; repeat constructor; try discriminate;
      repeat match goal with H : Forall2 Z.le _ _ |- _ => inversion H; clear H; subst end; lia.
Qed.
Example C23_value : compute (-1000) [9; 9; 9; 9] [[1; 2; 3; 4]; [2; 3; 4; 1]; [3; 4; 1; 2]; [4; 1; 2; 3]; [7; 7; 7; 10]] = Some 3095.
Proof. vm_compute. reflexivity. Qed.

(** Four objectives, all points strictly inside the reference point: the answer can be too small. *)
Theorem C23_four_dimensions_with_ties_refuted :
  exists (neg : Z) (ref : vec) (front : list vec) (v : Z),
    length ref = 4%nat /\ Forall (fun p => Forall2 Z.lt p ref /\ Forall2 (fun a r => neg <= a - r) p ref) front /\
    compute neg ref front = Some v /\ ~ is_hypervolume ref front v.
Proof.
  exists (-1000), [3; 3; 3; 3], [[0; 2; 0; 1]; [0; 2; 0; 0]; [1; 0; 0; 2]]. eexists.
  split; [reflexivity|]. split; [repeat constructor; try lia; discriminate|]. split; [vm_compute; reflexivity|].
  apply (too_small _ _ _ 3). vm_compute. reflexivity.
Qed.
Print Assumptions C23_four_dimensions_with_ties_refuted.

(** The same for a front of three mutually non-dominated points (five objectives). *)
Theorem C23_nondominated_front_refuted :
  exists (neg : Z) (ref : vec) (front : list vec) (v : Z),
    length ref = 5%nat /\ Forall (fun p => Forall2 Z.lt p ref /\ Forall2 (fun a r => neg <= a - r) p ref) front /\
    (forall p q, In p front -> In q front -> ~ pareto_dom p q) /\ NoDup front /\
    compute neg ref front = Some v /\ ~ is_hypervolume ref front v.
Proof.
  exists (-1000), [3; 3; 3; 3; 3], [[0; 1; 1; 1; 0]; [0; 1; 1; 0; 2]; [0; 0; 2; 1; 0]]. eexists.
  split; [reflexivity|]. split; [repeat constructor; try lia; discriminate|].
  split.
  { intros p q Hp Hq. cbn in Hp, Hq.
    repeat match goal with H : _ \/ _ |- _ => destruct H | H : False |- _ => destruct H end; subst;
      apply dominates_false_spec; reflexivity. }
  split; [repeat constructor; cbn; intuition discriminate|].
  split; [vm_compute; reflexivity|].
  apply (too_small _ _ _ 3). vm_compute. reflexivity.
Qed.
Print Assumptions C23_nondominated_front_refuted.

(** C24 - [h] is any multi-list whose lists below [d] hold [A i] (without the sentinel 0 and without
    repetitions); [xs] any nodes to be removed; node x carries point number x - 1. *)
Theorem C24_remove_reinsert_restores :
  forall (pts : list vec) (d : nat) (xs : list nat) (h : heap) (A : nat -> list nat),
    NoDup xs -> (forall x, In x xs -> exists p, nth_error pts (x - 1) = Some p /\ (d <= length p)%nat) ->
    (forall i, (i < d)%nat -> NoDup (A i) /\ ~ In 0%nat (A i) /\ incl xs (A i) /\ ring (nx h i) (pv h i) (A i)) ->
    exists h1 h2, remove_all pts d xs h = Some h1 /\ reinsert_all pts d (rev xs) h1 = Some h2 /\
      (forall i, (i < d)%nat -> exists B, ring (nx h1 i) (pv h1 i) B /\
         B = filter (fun y => negb (existsb (Nat.eqb y) xs)) (A i)) /\
      (forall i y, (d <= i)%nat -> nx h1 i y = nx h i y /\ pv h1 i y = pv h i y) /\
      (forall i y, nx h2 i y = nx h i y /\ pv h2 i y = pv h i y).
Proof. exact multilist_ok. Qed.
Print Assumptions C24_remove_reinsert_restores.

(** The multi-list the indicator builds: list i holds every point once, sorted by coordinate i. *)
Theorem C24_lists_are_sorted :
  forall (pts : list vec) (neg : Z) (dims : nat) (nodes : list nat) (h : heap),
    pre_process pts dims (empty_heap neg) = (nodes, h) ->
    forall i, (i < dims)%nat -> exists l, ring (nx h i) (pv h i) l /\ Permutation l (seq 1 (length pts)) /\
      StronglySorted (fun a b => coord pts i a <= coord pts i b) l.
Proof. exact preprocessed_ok. Qed.
Print Assumptions C24_lists_are_sorted.

Example C24_hypotheses :
  let pts := [[5; 1; 2]; [3; 2; 2]; [4; 0; 7]; [9; 9; 9]] in
  let h := snd (pre_process pts 3 (empty_heap (-1000))) in
  let A := fun i => nth i [[2; 3; 1; 4]; [3; 1; 2; 4]; [2; 1; 3; 4]]%nat [] in
  (forall i, (i < 2)%nat -> NoDup (A i) /\ ~ In 0%nat (A i) /\ incl [2; 4]%nat (A i) /\ ring (nx h i) (pv h i) (A i)) /\
  (match remove_all pts 2 [2; 4]%nat h with
   | Some h1 => map (nx h1 0%nat) [0; 3; 1]%nat = [3; 1; 0]%nat
   | None => False
   end).
Proof.
  split; [|vm_compute; reflexivity].
  intros i Hi. assert (H : i = 0%nat \/ i = 1%nat) by lia.
  split; [|split; [|split]]; [destruct H as [-> | ->]; repeat constructor; cbn; intuition discriminate
    | destruct H as [-> | ->]; cbn; intuition discriminate
    | destruct H as [-> | ->]; intros x Hx; cbn in *; intuition |].
  apply seg_ring. destruct H as [-> | ->]; vm_compute; repeat split; reflexivity.
Qed.

(** C25 - up to three objectives. *)
Theorem C25_never_negative :
  forall (neg : Z) (ref : vec) (front : list vec) (v : Z),
    (1 <= length ref <= 3)%nat -> (forall p, In p front -> length p = length ref) ->
    (length ref = 3%nat -> forall p, In p front -> Forall2 (fun a r => neg <= a - r) p ref) ->
    compute neg ref front = Some v -> 0 <= v.
Proof. intros neg ref front v Hl Hd Hn E. destruct (low_value neg ref front v Hl Hd Hn E) as (? & _ & _ & ->). lia. Qed.
Print Assumptions C25_never_negative.

(** If every point of [front] is weakly dominated by a point of [front'] then [front'] has at
    least the hypervolume of [front]. *)
Theorem C25_weakly_dominating_front_is_no_smaller :
  forall (neg : Z) (ref : vec) (front front' : list vec) (v v' : Z),
    (1 <= length ref <= 3)%nat -> (forall p, In p front \/ In p front' -> length p = length ref) ->
    (length ref = 3%nat -> forall p, In p front \/ In p front' -> Forall2 (fun a r => neg <= a - r) p ref) ->
    (forall p, In p front -> exists q, In q front' /\ Forall2 Z.le q p) ->
    compute neg ref front = Some v -> compute neg ref front' = Some v' -> v <= v'.
Proof.
  intros neg ref f f' v v' Hl Hd Hn H E E'.
  apply (hv_mono ref f f'); [eapply low_value | eapply low_value |]; eauto.
Qed.
Print Assumptions C25_weakly_dominating_front_is_no_smaller.

Theorem C25_adding_a_point_never_decreases :
  forall (neg : Z) (ref : vec) (front : list vec) (p : vec) (v v' : Z),
    (1 <= length ref <= 3)%nat -> (forall q, q = p \/ In q front -> length q = length ref) ->
    (length ref = 3%nat -> forall q, q = p \/ In q front -> Forall2 (fun a r => neg <= a - r) q ref) ->
    compute neg ref front = Some v -> compute neg ref (p :: front) = Some v' -> v <= v'.
Proof.
  intros neg ref f p v v' Hl Hd Hn E E'.
  apply (hv_mono ref f (p :: f)); [eapply low_value | eapply low_value |]; eauto.
  - intros q [<-|Hq]; auto.
  - intros H q [<-|Hq]; auto.
  - intros q Hq. exists q. split; [right; exact Hq | apply Forall2_Zle_refl].
Qed.
Print Assumptions C25_adding_a_point_never_decreases.

(** Order and multiplicity do not matter: only the set of points does. *)
Theorem C25_only_the_set_of_points_matters :
  forall (neg : Z) (ref : vec) (front front' : list vec),
    (1 <= length ref <= 3)%nat -> (forall p, In p front -> length p = length ref) ->
    (length ref = 3%nat -> forall p, In p front -> Forall2 (fun a r => neg <= a - r) p ref) ->
    (forall p, In p front <-> In p front') ->
    compute neg ref front = compute neg ref front'.
Proof.
  intros neg ref f f' Hl Hd Hn H. apply compute_low_same; auto.
  - intros p [Hp|Hp]; [|apply H in Hp]; auto.
  - intros H3 p [Hp|Hp]; [|apply H in Hp]; auto.
  - intros p Hp. exists p. split; [apply H, Hp | apply Forall2_Zle_refl].
  - intros p Hp. exists p. split; [apply H, Hp | apply Forall2_Zle_refl].
Qed.
Print Assumptions C25_only_the_set_of_points_matters.

Theorem C25_dominated_points_do_not_matter :
  forall (neg : Z) (ref : vec) (front : list vec) (p q : vec),
    (1 <= length ref <= 3)%nat -> (forall r, r = p \/ In r front -> length r = length ref) ->
    (length ref = 3%nat -> forall r, r = p \/ In r front -> Forall2 (fun a r => neg <= a - r) r ref) ->
    In q front -> Forall2 Z.le q p ->
    compute neg ref (p :: front) = compute neg ref front.
Proof.
  intros neg ref f p q Hl Hd Hn Hq Hle. apply compute_low_same; auto.
  - intros r [[<-|Hr]|Hr]; auto.
  - intros H3 r [[<-|Hr]|Hr]; auto.
  - intros r [<-|Hr]; [exists q; auto | exists r; split; [exact Hr | apply Forall2_Zle_refl]].
  - intros r Hr. exists r. split; [right; exact Hr | apply Forall2_Zle_refl].
Qed.
Print Assumptions C25_dominated_points_do_not_matter.

(** Any number of objectives, when points that agree in the first objective are listed in
    lexicographic order and no point is on the boundary of the reference point. *)
Theorem C25_when_ties_are_in_order_partial :
  forall (neg : Z) (ref : vec) (front front' : list vec) (v v' : Z),
    ref <> [] -> (forall p, In p front \/ In p front' -> length p = length ref) ->
    ties_in_order ref front -> ties_in_order ref front' ->
    (forall p, In p front \/ In p front' -> Forall2 (fun a r => neg <= a - r) p ref) ->
    compute neg ref front = Some v -> compute neg ref front' = Some v' ->
    0 <= v /\
    ((forall p, In p front -> exists q, In q front' /\ Forall2 Z.le q p) -> v <= v') /\
    ((forall p, In p front <-> In p front') -> v = v').
Proof.
  intros neg ref f f' v v' Hr Hd Ht Ht' Hn E E'.
  destruct (compute_exact_ties neg ref f) as (w & Ew & Hw); auto.
  destruct (compute_exact_ties neg ref f') as (w' & Ew' & Hw'); auto.
  rewrite E in Ew. injection Ew as <-. rewrite E' in Ew'. injection Ew' as <-.
  split; [destruct Hw as (? & _ & _ & ->); lia|]. split.
  - apply (hv_mono ref); assumption.
  - apply (hv_unique ref f f'); assumption.
Qed.
Print Assumptions C25_when_ties_are_in_order_partial.

Example C25_ties :
  compute (-1000) [9; 9; 9; 9] [[1; 2; 4; 1]; [0; 5; 5; 5]; [1; 2; 4; 1]; [2; 3; 4; 1]] = Some 2304 /\
  compute (-1000) [9; 9; 9; 9] [[1; 2; 3; 4]; [2; 3; 4; 1]; [1; 2; 4; 1]; [1; 2; 4; 1]; [0; 5; 5; 5]; [2; 3; 4; 8]] = Some 2584.
Proof. split; vm_compute; reflexivity. Qed.

(** In five objectives adding a point can make the computed value smaller, even for a front of
    mutually non-dominated points below the reference point 50. *)
Theorem C25_five_objectives_refuted :
  exists (neg : Z) (front : list vec) (p : vec) (v v' : Z),
    Forall (fun q => Forall2 Z.lt q [50; 50; 50; 50; 50] /\ Forall2 (fun a r => neg <= a - r) q [50; 50; 50; 50; 50]) (p :: front) /\
    (forall q r, In q (p :: front) -> In r (p :: front) -> ~ pareto_dom q r) /\ NoDup (p :: front) /\
    compute neg [50; 50; 50; 50; 50] front = Some v /\ compute neg [50; 50; 50; 50; 50] (p :: front) = Some v' /\ v' < v.
Proof.
  exists (-1000), [[2; 1; 1; 1; 0]; [2; 1; 1; 0; 1]; [2; 0; 2; 0; 2]], [1; 1; 2; 1; 0]. do 2 eexists.
  split; [repeat constructor; try lia; discriminate|].
  split.
  { intros p q Hp Hq. cbn in Hp, Hq.
    repeat match goal with H : _ \/ _ |- _ => destruct H | H : False |- _ => destruct H end; subst;
      apply dominates_false_spec; reflexivity. }
  split; [repeat constructor; cbn; intuition discriminate|].
  split; [vm_compute; reflexivity|]. split; [vm_compute; reflexivity|]. lia.
Qed.
Print Assumptions C25_five_objectives_refuted.

Example C25_fronts :
  compute (-1000) [10; 8] [[2; 5]; [4; 3]] = Some 36 /\ compute (-1000) [10; 8] [[4; 3]; [2; 5]; [4; 3]; [5; 6]] = Some 36 /\
  compute (-1000) [10; 8] [[2; 5]; [4; 3]; [8; 1]] = Some 40.
Proof. repeat split. Qed.
