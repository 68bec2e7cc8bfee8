(** Proofs about the fitness of SPEA2. *)
From Verif Require Import Spec Base MetSpec SpeaSpec SpeaFitSpec DomModel DomProofs SortModel SortProofs
     MetModel MetProofs SpeaModel SpeaProofs.
From Coq Require Import Reals Lra Sorted.
Local Open Scope nat_scope.

Section S.
  Variable union : list member.
  Variable d : nat.
  Hypothesis dim : all_dim d m_objectives union.
  Notation n := (length union).

  Lemma dominates_at_obj i j : dominates_at m_objectives union i j <->
    i < n /\ j < n /\ dominates (obj union i) (obj union j) = true.
  Proof.
    split.
    - intros (x & y & Ex & Ey & D).
      assert (Hi : i < n) by (apply nth_error_Some; congruence).
      assert (Hj : j < n) by (apply nth_error_Some; congruence).
      split; [exact Hi|]. split; [exact Hj|]. apply (dom_obj union d dim i j Hi Hj).
      rewrite (obj_at union i x Ex), (obj_at union j y Ey). exact D.
    - intros (Hi & Hj & D). destruct (at_pos union i Hi) as (x & Ex & Ox).
      destruct (at_pos union j Hj) as (y & Ey & Oy).
      exists x, y. split; [exact Ex|]. split; [exact Ey|].
      apply (dom_obj union d dim i j Hi Hj) in D. now rewrite Ox, Oy in D.
  Qed.

  Lemma strength_ok i : i < n -> strength_is m_objectives union i (strength union i).
  Proof.
    intros Hi. unfold strength.
    exists (filter (fun x => negb (i =? x) && dominates (obj union i) (obj union x)) (ids union)).
    split; [|reflexivity]. split; [apply NoDup_filter, ids_NoDup|].
    intros j. rewrite filter_In, ids_In, andb_true_iff, dominates_at_obj. split.
    - intros (Hj & _ & D). auto.
    - intros (_ & Hj & D). split; [exact Hj|]. split; [|exact D].
      apply negb_true_iff, Nat.eqb_neq. intros <-. now rewrite dominates_irrefl in D.
  Qed.

  Lemma fold_sum (g : nat -> nat) l : fold_left (fun s y => s + g y) l 0 = list_sum (map g l).
  Proof.
    induction l as [|x l IH]; [reflexivity|]. cbn [fold_left map list_sum fold_right].
    rewrite fold_add_acc, IH. reflexivity.
  Qed.

  Lemma raw_ok i : i < n -> raw_is m_objectives union i (raw_fitness union i).
  Proof.
    intros Hi. exists (filter (fun y => dominates (obj union y) (obj union i)) (ids union)), (strength union).
    split; [|split].
    - split; [apply NoDup_filter, ids_NoDup|]. intros j. rewrite filter_In, ids_In, dominates_at_obj. tauto.
    - intros j Hj. apply filter_In in Hj. destruct Hj as [Hj _]. apply ids_In in Hj. now apply strength_ok.
    - apply fold_sum.
  Qed.

  Lemma density_ok i r : 2 <= n -> i < n -> density union i = Some r ->
    exists k s, 1 <= k /\ k * k <= n < S k * S k /\ neighbour_distance m_objectives union i k s /\
      r = (1 / (sqrt (IZR s) + 2))%R.
  Proof.
    intros H2 Hi. unfold density. rewrite ids_length.
    destruct (in_split i (ids union)) as (l1 & l2 & E); [now apply ids_In|].
    pose proof (ids_NoDup union) as ND. rewrite E in ND.
    destruct (Zsort_min (map (fun p2 => euclid_sqr_distance (obj union i) (obj union p2)) (ids union))
                0%Z (map (fun p2 => euclid_sqr_distance (obj union i) (obj union p2)) (l1 ++ l2)))
      as (s & Es & Ps).
    { rewrite E, !map_app. cbn [map]. rewrite euclid_self. symmetry. apply Permutation_middle. }
    { intros y Hy. apply in_map_iff in Hy. destruct Hy as (j & <- & Hj).
      apply (euclid_nonneg union d dim); [exact Hi|]. apply ids_In. rewrite E.
      apply in_or_app. apply in_app_or in Hj. destruct Hj; [now left|right; now right]. }
    rewrite Es. pose proof (Nat.sqrt_spec n ltac:(lia)) as Q.
    assert (K : 1 <= Nat.sqrt n) by (destruct (Nat.sqrt n); [nia|lia]).
    destruct (Nat.sqrt n) as [|k]; [lia|]. cbn [nth_error].
    destruct (nth_error s k) as [z|] eqn:Ez; [|discriminate]. intros [= <-].
    exists (S k), z. split; [lia|]. split; [exact Q|]. split; [|reflexivity].
    exists (l1 ++ l2), s. split; [|split].
    - split; [now apply NoDup_remove_1 in ND|]. intros j.
      assert (J : In j (ids union) <-> In j (l1 ++ i :: l2)) by now rewrite E.
      rewrite ids_In in J. rewrite J. rewrite !in_app_iff. cbn [In].
      apply NoDup_remove_2 in ND. rewrite in_app_iff in ND. split.
      + intros Hj. split; [tauto|]. intros ->. tauto.
      + intros ([Hj|[Hj|Hj]] & N); try tauto. congruence.
    - split.
      + pose proof (Zsort_sorted (map (fun p2 => euclid_sqr_distance (obj union i) (obj union p2)) (ids union))) as SS.
        rewrite Es in SS. apply StronglySorted_inv in SS. destruct SS as [SS _].
        apply StronglySorted_Sorted. clear -SS. induction SS as [|a l _ IH F]; constructor; [exact IH|].
        eapply Forall_impl; [|exact F]. intros b Hb. now apply Z.leb_le.
      + eexists. split; [exact Ps|].
        assert (G : forall j, In j (l1 ++ l2) -> j < n).
        { intros j Hj. apply ids_In. rewrite E. apply in_or_app. apply in_app_or in Hj.
          destruct Hj; [now left|right; now right]. }
        revert G. generalize (l1 ++ l2). clear -dim Hi. induction l as [|j l IH]; intros G; cbn [map]; constructor.
        * destruct (at_pos union i Hi) as (x & Ex & Ox).
          destruct (at_pos union j (G j (or_introl eq_refl))) as (y & Ey & Oy).
          exists x, y. split; [exact Ex|]. split; [exact Ey|]. rewrite <- Ox, <- Oy.
          apply euclid_sq_dist. rewrite !(obj_dim union d dim); auto. apply G. now left.
        * apply IH. intros q Hq. apply G. now right.
    - cbn [Nat.sub]. now rewrite Nat.sub_0_r.
  Qed.
End S.
