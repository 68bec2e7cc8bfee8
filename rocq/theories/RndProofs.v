(** Proofs about the variation operators in rounded arithmetic. *)
From Coq Require Import Reals List Lra Lia.
From Verif Require Import OpModel OpSpec OpProofs OpProofs2 RndModel RndSpec.
Import ListNotations.
Local Open Scope R_scope.

Section Rounded.
  Variables (rd : R -> R) (pw : R -> R -> R) (top eps last : R).
  Variable A : arithmetic rd pw top eps last.

  Let le := rd_le _ _ _ _ _ A.
  Let rr := rd_repr _ _ _ _ _ A.
  Let r0 : rd 0 = 0 := rd_zero _ _ _ _ _ A.
  Let r1 : rd 1 = 1 := rd_one _ _ _ _ _ A.
  Let r2 : rd 2 = 2 := rd_two _ _ _ _ _ A.
  Let re : rd eps = eps := rd_eps _ _ _ _ _ A.
  Let ep : 0 < eps := eps_pos _ _ _ _ _ A.

  Lemma rd_ge0 x : 0 <= x -> 0 <= rd x.
  Proof. intro H. rewrite <- r0. apply le, H. Qed.
  Lemma rd_le0 x : x <= 0 -> rd x <= 0.
  Proof. intro H. rewrite <- r0. apply le, H. Qed.
  Lemma rd_le1 x : x <= 1 -> rd x <= 1.
  Proof. intro H. rewrite <- r1. apply le, H. Qed.
  Lemma rd_ge1 x : 1 <= x -> 1 <= rd x.
  Proof. intro H. rewrite <- r1. apply le, H. Qed.
  Lemma rd_below x y : repr rd y -> x <= y -> rd x <= y.
  Proof. intros Hy H. rewrite <- Hy. apply le, H. Qed.
  Lemma rd_above x y : repr rd y -> y <= x -> y <= rd x.
  Proof. intros Hy H. rewrite <- Hy. apply le, H. Qed.

  (** A width plus epsilon. *)
  Lemma widened w : repr rd w -> 0 <= w -> w <= rd (w + eps) /\ 0 < rd (w + eps).
  Proof.
    intros Hw H. split; [apply rd_above; [exact Hw|lra]|].
    apply Rlt_le_trans with eps; [exact ep|]. apply rd_above; [exact re|lra].
  Qed.

  Lemma fdiv_ok x y : y <> 0 -> fdiv rd x y = Some (rd (x / y)).
  Proof. intro H. unfold fdiv. destruct (Req_EM_T y 0); [contradiction|reflexivity]. Qed.

  Lemma fpow_share x y : 0 <= x <= 1 -> 0 <= y -> exists p, fpow pw top x y = Some p /\ 0 <= p <= 1 /\ repr rd p.
  Proof.
    intros Hx Hy. exists (pw x y). pose proof (pw_pos _ _ _ _ _ A x y ltac:(lra)). pose proof (pw_share _ _ _ _ _ A x y Hx Hy).
    pose proof (top_large _ _ _ _ _ A).
    split; [|split; [lra|apply (pw_repr _ _ _ _ _ A); lra]]. unfold fpow. destruct (Rlt_dec x 0); [lra|].
    destruct (Req_EM_T x 0); [destruct (Rlt_dec y 0); [lra|reflexivity]|]. destruct (Rlt_dec top (pw x y)); [lra|reflexivity].
  Qed.
  Lemma fpow_falls x y : 1 <= x -> y <= 0 -> exists p, fpow pw top x y = Some p /\ 0 <= p <= 1 /\ repr rd p.
  Proof.
    intros Hx Hy. exists (pw x y). pose proof (pw_pos _ _ _ _ _ A x y ltac:(lra)). pose proof (pw_falls _ _ _ _ _ A x y Hx Hy).
    pose proof (top_large _ _ _ _ _ A).
    split; [|split; [lra|apply (pw_repr _ _ _ _ _ A); lra]]. unfold fpow. destruct (Rlt_dec x 0); [lra|].
    destruct (Req_EM_T x 0); [lra|]. destruct (Rlt_dec top (pw x y)); [lra|reflexivity].
  Qed.
  Lemma fpow_root x y : repr rd x -> 0 <= x <= top -> 0 <= y <= 1 -> exists p, fpow pw top x y = Some p /\ 0 <= p.
  Proof.
    intros Rx Hx Hy. destruct (Rle_dec x 1) as [H1|H1].
    - destruct (fpow_share x y) as (p & E & Hp & _); [lra|lra|]. exists p. split; [exact E|lra].
    - exists (pw x y). pose proof (pw_pos _ _ _ _ _ A x y ltac:(lra)). pose proof (pw_root _ _ _ _ _ A x y Rx ltac:(lra) Hy).
      split; [|lra]. unfold fpow. destruct (Rlt_dec x 0); [lra|]. destruct (Req_EM_T x 0); [lra|]. destruct (Rlt_dec top (pw x y)); [lra|reflexivity].
  Qed.

  Lemma ratio_share num w : repr rd w -> 0 <= num <= w -> 0 <= rd (num / rd (w + eps)) <= 1.
  Proof.
    intros Hw H. destruct (widened w Hw ltac:(lra)) as [W1 W2].
    assert (0 <= num / rd (w + eps) <= 1).
    { split; [apply Rmult_le_pos; [lra|left; apply Rinv_0_lt_compat; exact W2]|].
      apply Rmult_le_reg_r with (rd (w + eps)); [exact W2|]. unfold Rdiv. rewrite Rmult_assoc, Rinv_l by lra. lra. }
    split; [apply rd_ge0; lra|apply rd_le1; lra].
  Qed.

  Section Eta.
    Variable eta : R.
    Hypothesis He : 0 <= eta.

    Lemma exponent : 1 <= fadd rd eta 1.
    Proof. unfold fadd. apply rd_ge1. lra. Qed.
    Lemma root : exists e, fdiv rd 1 (fadd rd eta 1) = Some e /\ 0 <= e <= 1.
    Proof.
      pose proof exponent as H. exists (rd (1 / fadd rd eta 1)). split; [apply fdiv_ok; lra|].
      assert (0 <= 1 / fadd rd eta 1 <= 1).
      { split; [left; apply Rdiv_lt_0_compat; lra|]. apply Rmult_le_reg_r with (fadd rd eta 1); [lra|].
        unfold Rdiv. rewrite Rmult_assoc, Rinv_l by lra. lra. }
      split; [apply rd_ge0; lra|apply rd_le1; lra].
    Qed.

    Lemma fperturbed_ok lb ub y r : repr rd lb -> repr rd ub -> repr rd y -> lb <= y <= ub -> draw rd last r ->
      exists y', fperturbed rd pw top eps eta lb ub y r = Some y' /\ repr rd y' /\
        (r <= 1 / 2 -> y' <= y) /\ (1 / 2 < r -> y <= y').
    Proof.
      intros Rl Ru Ry Hy [Hr Hd]. pose proof (last_lt _ _ _ _ _ A) as Hl. unfold fperturbed.
      destruct (widened (fsub rd ub lb)) as [W1 W2]; [apply rr|apply rd_ge0; lra|].
      unfold fadd at 1 2. rewrite (fdiv_ok (fsub rd y lb)), (fdiv_ok (fsub rd ub y)) by lra.
      destruct root as (e & Ee & Be). rewrite Ee.
      assert (D1 : 0 <= rd (fsub rd y lb / rd (fsub rd ub lb + eps)) <= 1).
      { apply ratio_share; [apply rr|]. unfold fsub. split; [apply rd_ge0; lra|apply le; lra]. }
      assert (D2 : 0 <= rd (fsub rd ub y / rd (fsub rd ub lb + eps)) <= 1).
      { apply ratio_share; [apply rr|]. unfold fsub. split; [apply rd_ge0; lra|apply le; lra]. }
      assert (W : 0 <= fsub rd ub lb) by (unfold fsub; apply rd_ge0; lra).
      pose proof exponent as Hx.
      destruct (Rle_dec r (1 / 2)) as [Hh|Hh].
      - destruct (fpow_share (fsub rd 1 (rd (fsub rd y lb / rd (fsub rd ub lb + eps)))) (fadd rd eta 1)) as (p & Ep & Bp & Rp).
        { unfold fsub in D1, D2 |- *. split; [apply rd_ge0; lra|apply rd_le1; lra]. } { lra. }
        unfold fadd in Ep |- *. rewrite Ep.
        set (a := fmul rd 2 r).
        assert (Ha : 0 <= a <= 1) by (unfold a, fmul; split; [apply rd_ge0; lra|apply rd_le1; lra]).
        assert (Hb : 0 <= fsub rd 1 a) by (unfold fsub; apply rd_ge0; lra).
        assert (Hv : 0 <= rd (a + fmul rd (fsub rd 1 a) p) <= 1).
        { assert (0 <= fmul rd (fsub rd 1 a) p <= fsub rd 1 a).
          { unfold fmul. split; [apply rd_ge0, Rmult_le_pos; lra|]. apply rd_below; [apply rr|].
            rewrite <- (Rmult_1_r (fsub rd 1 a)) at 2. apply Rmult_le_compat_l; lra. }
          split; [apply rd_ge0; lra|]. apply Rle_trans with (rd (a + fsub rd 1 a)); [apply le; lra|].
          apply (share_low _ _ _ _ _ A); [apply rr|exact Ha]. }
        destruct (fpow_share _ e Hv ltac:(lra)) as (q & Eq & Bq & _). rewrite Eq.
        eexists. split; [reflexivity|]. split; [apply rr|]. split; [|lra]. intros _.
        apply rd_below; [exact Ry|]. assert (fmul rd (fsub rd q 1) (fsub rd ub lb) <= 0); [|lra].
        unfold fmul. apply rd_le0. assert (fsub rd q 1 <= 0) by (unfold fsub; apply rd_le0; lra).
        rewrite <- (Rmult_0_l (fsub rd ub lb)). apply Rmult_le_compat_r; lra.
      - destruct (fpow_share (fsub rd 1 (rd (fsub rd ub y / rd (fsub rd ub lb + eps)))) (fadd rd eta 1)) as (p & Ep & Bp & Rp).
        { unfold fsub in D1, D2 |- *. split; [apply rd_ge0; lra|apply rd_le1; lra]. } { lra. }
        unfold fadd in Ep |- *. rewrite Ep.
        set (a := fmul rd 2 (fsub rd 1 r)). set (b := fmul rd 2 (fsub rd r (1 / 2))).
        assert (Ha : 0 <= a) by (unfold a, fmul, fsub; apply rd_ge0; apply Rmult_le_pos; [lra|apply rd_ge0; lra]).
        assert (Hb : 0 <= b) by (unfold b, fmul, fsub; apply rd_ge0; apply Rmult_le_pos; [lra|apply rd_ge0; lra]).
        assert (Hv : 0 <= rd (a + fmul rd b p) <= 1).
        { assert (0 <= fmul rd b p <= b).
          { unfold fmul. split; [apply rd_ge0, Rmult_le_pos; lra|]. apply rd_below; [apply rr|].
            rewrite <- (Rmult_1_r b) at 2. apply Rmult_le_compat_l; lra. }
          split; [apply rd_ge0; lra|]. apply Rle_trans with (rd (a + b)); [apply le; lra|].
          apply (share_high _ _ _ _ _ A); [exact Hr|lra]. }
        destruct (fpow_share _ e Hv ltac:(lra)) as (q & Eq & Bq & _). rewrite Eq.
        eexists. split; [reflexivity|]. split; [apply rr|]. split; [lra|]. intros _.
        apply rd_above; [exact Ry|]. assert (0 <= fmul rd (fsub rd 1 q) (fsub rd ub lb)); [|lra].
        unfold fmul. apply rd_ge0. apply Rmult_le_pos; [|exact W]. unfold fsub. apply rd_ge0. lra.
    Qed.

    Lemma fbeta_ok r alpha : 1 <= alpha <= 2 -> draw rd last r -> exists q, fbeta_q rd pw top r alpha eta = Some q /\ 0 <= q.
    Proof.
      intros Ha [Hr Hd]. pose proof (last_lt _ _ _ _ _ A) as Hl. unfold fbeta_q. rewrite fdiv_ok by lra.
      destruct root as (e & Ee & Be). rewrite Ee.
      assert (Hm : 0 <= fmul rd r alpha <= 2 * last).
      { unfold fmul. split; [apply rd_ge0, Rmult_le_pos; lra|]. apply rd_below; [exact (last_two _ _ _ _ _ A)|].
        rewrite Rmult_comm. apply Rmult_le_compat; lra. }
      pose proof (top_large _ _ _ _ _ A) as Ht.
      destruct (Rle_dec r (rd (1 / alpha))).
      - apply fpow_root; [apply rr|lra|lra].
      - assert (Hs : 2 - 2 * last <= fsub rd 2 (fmul rd r alpha)).
        { unfold fsub. apply rd_above; [exact (last_gap _ _ _ _ _ A)|lra]. }
        rewrite fdiv_ok by lra. apply fpow_root; [apply rr| |exact Be]. split.
        + apply rd_ge0. left. apply Rdiv_lt_0_compat; lra.
        + apply Rle_trans with (rd (1 / (2 - 2 * last))); [|exact (top_gap _ _ _ _ _ A)].
          apply le. unfold Rdiv. rewrite !Rmult_1_l. apply Rinv_le_contravar; lra.
    Qed.

    Lemma fspread_ok room y1 y2 r : 0 <= room -> y1 <= y2 -> draw rd last r ->
      exists q, fspread rd pw top eps eta room y1 y2 r = Some q /\ 0 <= q.
    Proof.
      intros Hr Hy D. unfold fspread. destruct (widened (fsub rd y2 y1)) as [W1 W2]; [apply rr|apply rd_ge0; lra|].
      unfold fadd at 1. rewrite fdiv_ok by lra.
      assert (Hm : 0 <= fmul rd 2 room) by (unfold fmul; apply rd_ge0; lra).
      assert (Hq : 0 <= rd (fmul rd 2 room / rd (fsub rd y2 y1 + eps))).
      { apply rd_ge0. apply Rmult_le_pos; [lra|left; apply Rinv_0_lt_compat; exact W2]. }
      destruct (fpow_falls (fadd rd 1 (rd (fmul rd 2 room / rd (fsub rd y2 y1 + eps)))) (- fadd rd eta 1)) as (p & Ep & Bp & _).
      { unfold fadd at 1. apply rd_ge1. lra. } { pose proof exponent. lra. }
      rewrite Ep. apply fbeta_ok; [|exact D]. unfold fsub. split; [apply rd_ge1; lra|]. apply rd_below; [exact r2|lra].
    Qed.

    (** Both children exist, one on each side of the rounded midpoint. *)
    Lemma fchildren_ok lb ub y1 y2 r : lb <= y1 -> y1 <= y2 -> y2 <= ub -> draw rd last r ->
      exists a b, fchild_a rd pw top eps eta lb y1 y2 r = Some a /\ fchild_b rd pw top eps eta ub y1 y2 r = Some b /\
        repr rd a /\ repr rd b /\ a <= rd (1 / 2 * rd (y1 + y2)) <= b.
    Proof.
      intros H1 H2 H3 D. unfold fchild_a, fchild_b.
      destruct (fspread_ok (fsub rd y1 lb) y1 y2 r) as (q & Eq & Bq); [unfold fsub; apply rd_ge0; lra|exact H2|exact D|].
      destruct (fspread_ok (fsub rd ub y2) y1 y2 r) as (q' & Eq' & Bq'); [unfold fsub; apply rd_ge0; lra|exact H2|exact D|].
      rewrite Eq, Eq'. do 2 eexists. split; [reflexivity|]. split; [reflexivity|]. split; [apply rr|]. split; [apply rr|].
      assert (W : 0 <= fsub rd y2 y1) by (unfold fsub; apply rd_ge0; lra).
      assert (M : 0 <= fmul rd q (fsub rd y2 y1)) by (unfold fmul; apply rd_ge0, Rmult_le_pos; assumption).
      assert (M' : 0 <= fmul rd q' (fsub rd y2 y1)) by (unfold fmul; apply rd_ge0, Rmult_le_pos; assumption).
      unfold fmul at 1 3. unfold fadd.
      split; apply le; apply Rmult_le_compat_l; try lra.
      - unfold fsub at 1. apply rd_below; [apply rr|lra].
      - apply rd_above; [apply rr|lra].
    Qed.
  End Eta.

  Lemma clamp_repr lb ub y : repr rd lb -> repr rd ub -> repr rd y -> repr rd (rclamp lb ub y).
  Proof. intros. unfold rclamp, Rmin, Rmax. destruct (Rle_dec lb y); destruct (Rle_dec ub _); assumption. Qed.
  Lemma clamp_box lb ub y : lb <= ub -> lb <= rclamp lb ub y <= ub.
  Proof. intro H. unfold rclamp. split; [apply Rmin_glb; [exact H|apply Rmax_l]|apply Rmin_l]. Qed.

  (** ---- vectors ---- *)
  Definition fits (d : R * R) (x : R) : Prop := fst d <= x <= snd d /\ repr rd x /\ repr rd (fst d) /\ repr rd (snd d).

  Lemma in_fbox_nth dims v : in_fbox rd dims v ->
    length v = length dims /\ forall i d, nth_error dims i = Some d -> exists x, nth_error v i = Some x /\ fits d x.
  Proof.
    intros (B & Fv & Fd). destruct (in_rbox_nth _ _ B) as [L N]. split; [exact L|]. intros i d Ed. destruct (N i d Ed) as (x & Ex & Bx).
    exists x. split; [exact Ex|]. rewrite Forall_forall in Fv, Fd. destruct (Fd d (nth_error_In _ _ Ed)). repeat split; auto; try apply Bx.
    apply Fv, (nth_error_In _ _ Ex).
  Qed.
  Lemma nth_in_fbox dims v : length v = length dims ->
    (forall i d, nth_error dims i = Some d -> exists x, nth_error v i = Some x /\ fits d x) -> in_fbox rd dims v.
  Proof.
    intros L N. split; [|split].
    - apply nth_in_rbox; [exact L|]. intros i d Ed. destruct (N i d Ed) as (x & Ex & Bx & _). eauto.
    - apply Forall_forall. intros x Hx. apply In_nth_error in Hx. destruct Hx as [i Ei].
      destruct (nth_error dims i) as [d|] eqn:Ed.
      + destruct (N i d Ed) as (x' & Ex & _ & Rx & _). congruence.
      + apply nth_error_None in Ed. assert (i < length v)%nat by (apply nth_error_Some; congruence). lia.
    - apply Forall_forall. intros d Hd. apply In_nth_error in Hd. destruct Hd as [i Ei].
      destruct (N i d Ei) as (x & _ & _ & _ & R1 & R2). auto.
  Qed.

  Section Mutation.
    Variables (eta rate : R) (sel rnd : nat -> R).
    Hypothesis He : 0 <= eta.
    Hypothesis Hr : forall i, draw rd last (rnd i).

    Definition mutated (d : R * R) (x y : R) (s r : R) : Prop :=
      (rate < s -> y = x) /\
      (s <= rate -> (r <= 1 / 2 -> fst d <= y <= x) /\ (1 / 2 < r -> x <= y <= snd d)).

    Lemma fmutate_loop_ok : forall dims xs i new,
      length new = length xs ->
      (forall k, (i <= k)%nat -> nth_error new k = nth_error xs k) ->
      (forall j d, nth_error dims j = Some d -> exists x, nth_error xs (i + j) = Some x /\ fits d x) ->
      exists out, fmutate_loop rd pw top eps rate eta sel rnd xs i dims new = Some out /\
        length out = length new /\
        (forall k, (k < i)%nat -> nth_error out k = nth_error new k) /\
        forall j d x, nth_error dims j = Some d -> nth_error xs (i + j) = Some x ->
          exists y, nth_error out (i + j) = Some y /\ fits d y /\ mutated d x y (sel (i + j)%nat) (rnd (i + j)%nat).
    Proof.
      induction dims as [|[lb ub] dims IH]; intros xs i new L N H; cbn [fmutate_loop].
      - exists new. split; [reflexivity|]. split; [reflexivity|]. split; [reflexivity|]. intros [|j] d x E; discriminate.
      - assert (T : forall j d, nth_error dims j = Some d -> exists x, nth_error xs (S i + j) = Some x /\ fits d x).
        { intros j d E. replace (S i + j)%nat with (i + S j)%nat by lia. apply H. exact E. }
        destruct (H O (lb, ub) eq_refl) as (x0 & E0 & F0). rewrite Nat.add_0_r in E0.
        destruct F0 as (B0 & Rx & Rl & Ru). cbn [fst snd] in *.
        destruct (Rlt_dec rate (sel i)) as [S0|S0].
        + destruct (IH xs (S i) new L) as (out & E & L' & K & J); [intros k Hk; apply N; lia|exact T|].
          exists out. split; [exact E|]. split; [exact L'|]. split; [intros k Hk; apply K; lia|].
          intros [|j] d x Ed Ex.
          * rewrite Nat.add_0_r in Ex |- *. injection Ed as <-. exists x. split; [rewrite K by lia; rewrite N by lia; exact Ex|].
            assert (x0 = x) by congruence. subst x0. split; [repeat split; auto; apply B0|]. split; [reflexivity|intros; lra].
          * replace (i + S j)%nat with (S i + j)%nat in Ex |- * by lia. exact (J j d x Ed Ex).
        + rewrite E0.
          destruct (fperturbed_ok eta He lb ub x0 (rnd i) Rl Ru Rx B0 (Hr i)) as (y & Ey & Ry & G1 & G2). rewrite Ey.
          destruct (IH xs (S i) (put i (rclamp lb ub y) new)) as (out & E & L' & K & J); [rewrite put_length; exact L| |exact T|].
          { intros k Hk. rewrite put_other by lia. apply N. lia. }
          exists out. split; [exact E|]. rewrite put_length in L'. split; [exact L'|].
          assert (Li : (i < length new)%nat). { rewrite L. apply nth_error_Some. congruence. }
          split; [intros k Hk; rewrite K by lia; apply put_other; lia|].
          intros [|j] d x Ed Ex.
          * rewrite Nat.add_0_r in Ex |- *. injection Ed as <-. assert (x0 = x) by congruence. subst x0.
            exists (rclamp lb ub y). split; [rewrite K by lia; apply put_same; exact Li|].
            pose proof (clamp_box lb ub y ltac:(lra)) as C.
            split; [repeat split; cbn [fst snd]; auto; try apply C; apply clamp_repr; assumption|].
            split; [intros; lra|]. intros _. cbn [fst snd]. split; intro Hh.
            -- split; [apply C|]. specialize (G1 Hh). unfold rclamp. apply Rle_trans with (Rmax lb y); [apply Rmin_r|]. apply Rmax_lub; lra.
            -- split; [|apply C]. specialize (G2 Hh). unfold rclamp. apply Rmin_glb; [lra|]. apply Rle_trans with y; [exact G2|apply Rmax_r].
          * replace (i + S j)%nat with (S i + j)%nat in Ex |- * by lia. exact (J j d x Ed Ex).
    Qed.

    Lemma fmutate_ok dims xs : in_fbox rd dims xs ->
      exists ys, fmutate rd pw top eps xs dims rate eta sel rnd = Some ys /\ in_fbox rd dims ys /\
        forall i d x, nth_error dims i = Some d -> nth_error xs i = Some x ->
          exists y, nth_error ys i = Some y /\ mutated d x y (sel i) (rnd i).
    Proof.
      intro B. destruct (in_fbox_nth _ _ B) as [L N].
      destruct (fmutate_loop_ok dims xs 0 xs eq_refl) as (ys & E & L' & _ & J); [reflexivity|exact N|].
      exists ys. split; [exact E|]. split.
      - apply nth_in_fbox; [congruence|]. intros i d Ed. destruct (N i d Ed) as (x & Ex & _).
        destruct (J i d x Ed Ex) as (y & Ey & F & _). eauto.
      - intros i d x Ed Ex. destruct (J i d x Ed Ex) as (y & Ey & _ & M). eauto.
    Qed.
  End Mutation.

  Section Crossover.
    Variables (eta : R) (skip rand swap : nat -> R).
    Hypothesis He : 0 <= eta.
    Hypothesis Hr : forall i, draw rd last (rand i).

    (** The genes [a], [b] of the two children of [x] and [y]. *)
    Definition crossed (d : R * R) (x y a b s w : R) : Prop :=
      (1 / 2 < s \/ Rabs (rd (x - y)) <= eps -> a = x /\ b = y) /\
      (s <= 1 / 2 -> eps < Rabs (rd (x - y)) -> if Rlt_dec (1 / 2) w then b <= a else a <= b).

    Lemma fsbx_loop_ok : forall dims xs ys i nx ny,
      length nx = length xs -> length ny = length ys ->
      (forall k, (i <= k)%nat -> nth_error nx k = nth_error xs k /\ nth_error ny k = nth_error ys k) ->
      (forall j d, nth_error dims j = Some d ->
         exists x y, nth_error xs (i + j) = Some x /\ nth_error ys (i + j) = Some y /\ fits d x /\ fits d y) ->
      exists ca cb, fsbx_loop rd pw top eps eta skip rand swap xs ys i dims nx ny = Some (ca, cb) /\
        length ca = length nx /\ length cb = length ny /\
        (forall k, (k < i)%nat -> nth_error ca k = nth_error nx k /\ nth_error cb k = nth_error ny k) /\
        forall j d x y, nth_error dims j = Some d -> nth_error xs (i + j) = Some x -> nth_error ys (i + j) = Some y ->
          exists a b, nth_error ca (i + j) = Some a /\ nth_error cb (i + j) = Some b /\ fits d a /\ fits d b /\
            crossed d x y a b (skip (i + j)%nat) (swap (i + j)%nat).
    Proof.
      induction dims as [|[lb ub] dims IH]; intros xs ys i nx ny Lx Ly N H; cbn [fsbx_loop].
      - exists nx, ny. split; [reflexivity|]. split; [reflexivity|]. split; [reflexivity|]. split; [auto|].
        intros [|j] d x y E; discriminate.
      - destruct (H O (lb, ub) eq_refl) as (x0 & y0 & Ex & Ey & Fx & Fy). rewrite Nat.add_0_r in Ex, Ey.
        assert (T : forall j d, nth_error dims j = Some d ->
           exists x y, nth_error xs (S i + j) = Some x /\ nth_error ys (S i + j) = Some y /\ fits d x /\ fits d y).
        { intros j d Ed. replace (S i + j)%nat with (i + S j)%nat by lia. apply H. exact Ed. }
        assert (Go : forall nx' ny' a b,
          length nx' = length nx -> length ny' = length ny ->
          (forall k, (k <> i)%nat -> nth_error nx' k = nth_error nx k /\ nth_error ny' k = nth_error ny k) ->
          nth_error nx' i = Some a -> nth_error ny' i = Some b -> fits (lb, ub) a -> fits (lb, ub) b ->
          crossed (lb, ub) x0 y0 a b (skip i) (swap i) ->
          exists ca cb, fsbx_loop rd pw top eps eta skip rand swap xs ys (S i) dims nx' ny' = Some (ca, cb) /\
            length ca = length nx /\ length cb = length ny /\
            (forall k, (k < i)%nat -> nth_error ca k = nth_error nx k /\ nth_error cb k = nth_error ny k) /\
            forall j d x y, nth_error ((lb, ub) :: dims) j = Some d -> nth_error xs (i + j) = Some x -> nth_error ys (i + j) = Some y ->
              exists a b, nth_error ca (i + j) = Some a /\ nth_error cb (i + j) = Some b /\ fits d a /\ fits d b /\
                crossed d x y a b (skip (i + j)%nat) (swap (i + j)%nat)).
        { intros nx' ny' a b L1 L2 O Na Nb Fa Fb G.
          destruct (IH xs ys (S i) nx' ny') as (ca & cb & E & M1 & M2 & K & J); [congruence|congruence| |exact T|].
          { intros k Hk. destruct (O k) as [-> ->]; [lia|]. apply N. lia. }
          exists ca, cb. split; [exact E|]. split; [congruence|]. split; [congruence|]. split.
          - intros k Hk. destruct (K k) as [K1 K2]; [lia|]. destruct (O k) as [O1 O2]; [lia|]. split; congruence.
          - intros [|j] d x y Ed Exx Eyy.
            + rewrite Nat.add_0_r in Exx, Eyy |- *. injection Ed as <-.
              assert (x0 = x) by congruence. assert (y0 = y) by congruence. subst x0 y0.
              destruct (K i) as [K1 K2]; [lia|]. exists a, b. split; [congruence|]. split; [congruence|]. auto.
            + replace (i + S j)%nat with (S i + j)%nat in Exx, Eyy |- * by lia. exact (J j d x y Ed Exx Eyy). }
        destruct (N i) as [Nx Ny]; [lia|]. rewrite Ex in Nx. rewrite Ey in Ny.
        destruct (Rlt_dec (1 / 2) (skip i)) as [S0|S0].
        { apply (Go nx ny x0 y0); auto. split; [auto|intros; lra]. }
        rewrite Ex, Ey. unfold fsub at 1. destruct (Rle_dec (Rabs (rd (x0 - y0))) eps) as [D0|D0].
        { apply (Go nx ny x0 y0); auto. split; [auto|intros; lra]. }
        destruct Fx as (Bx & Rx & Rl & Ru), Fy as (By & Ry & _ & _). cbn [fst snd] in *.
        assert (MM : Rmin x0 y0 <= Rmax x0 y0 /\ lb <= Rmin x0 y0 /\ Rmax x0 y0 <= ub).
        { unfold Rmin, Rmax. destruct (Rle_dec x0 y0); lra. }
        destruct MM as (M1 & M2 & M3).
        destruct (fchildren_ok eta He lb ub _ _ (rand i) M2 M1 M3 (Hr i)) as (a & b & Ea & Eb & Ra & Rb & Hab). rewrite Ea, Eb.
        assert (Li : (i < length nx)%nat) by (apply nth_error_Some; congruence).
        assert (Li' : (i < length ny)%nat) by (apply nth_error_Some; congruence).
        assert (Fa : fits (lb, ub) (rclamp lb ub a)).
        { split; [apply (clamp_box lb ub a); lra|]. split; [apply clamp_repr; assumption|auto]. }
        assert (Fb : fits (lb, ub) (rclamp lb ub b)).
        { split; [apply (clamp_box lb ub b); lra|]. split; [apply clamp_repr; assumption|auto]. }
        assert (Mab : rclamp lb ub a <= rclamp lb ub b).
        { unfold rclamp. apply Rmin_glb; [apply Rmin_l|]. apply Rle_trans with (Rmax lb a); [apply Rmin_r|]. apply Rle_max_compat_l. lra. }
        destruct (Rlt_dec (1 / 2) (swap i)) as [W|W].
        + apply (Go (put i (rclamp lb ub b) nx) (put i (rclamp lb ub a) ny) (rclamp lb ub b) (rclamp lb ub a)); auto using put_length, put_same.
          * intros k Hk. rewrite !put_other by lia. auto.
          * split; [intros [H1|H1]; lra|]. intros _ _. destruct (Rlt_dec (1 / 2) (swap i)); [exact Mab|contradiction].
        + apply (Go (put i (rclamp lb ub a) nx) (put i (rclamp lb ub b) ny) (rclamp lb ub a) (rclamp lb ub b)); auto using put_length, put_same.
          * intros k Hk. rewrite !put_other by lia. auto.
          * split; [intros [H1|H1]; lra|]. intros _ _. destruct (Rlt_dec (1 / 2) (swap i)); [contradiction|exact Mab].
    Qed.

    Lemma fsbx_ok dims xs ys : in_fbox rd dims xs -> in_fbox rd dims ys ->
      exists ca cb, fsbx_loop rd pw top eps eta skip rand swap xs ys 0 dims xs ys = Some (ca, cb) /\
        in_fbox rd dims ca /\ in_fbox rd dims cb /\
        forall i d x y, nth_error dims i = Some d -> nth_error xs i = Some x -> nth_error ys i = Some y ->
          exists a b, nth_error ca i = Some a /\ nth_error cb i = Some b /\ crossed d x y a b (skip i) (swap i).
    Proof.
      intros Bx By. destruct (in_fbox_nth _ _ Bx) as [Lx Nx]. destruct (in_fbox_nth _ _ By) as [Ly Ny].
      destruct (fsbx_loop_ok dims xs ys 0 xs ys eq_refl eq_refl) as (ca & cb & E & La & Lb & _ & J); [auto| |].
      { intros j d Ed. destruct (Nx j d Ed) as (x & Ex & Hx). destruct (Ny j d Ed) as (y & Ey & Hy). exists x, y. auto. }
      exists ca, cb. split; [exact E|].
      assert (G : forall i d, nth_error dims i = Some d -> exists a b,
                nth_error ca i = Some a /\ nth_error cb i = Some b /\ fits d a /\ fits d b).
      { intros i d Ed. destruct (Nx i d Ed) as (x & Ex & Hx). destruct (Ny i d Ed) as (y & Ey & Hy).
        destruct (J i d x y Ed Ex Ey) as (a & b & Ea & Eb & Fa & Fb & _). exists a, b. auto. }
      split; [|split].
      - apply nth_in_fbox; [congruence|]. intros i d Ed. destruct (G i d Ed) as (a & b & Ea & _ & Fa & _). eauto.
      - apply nth_in_fbox; [congruence|]. intros i d Ed. destruct (G i d Ed) as (a & b & _ & Eb & _ & Fb). eauto.
      - intros i d x y Ed Ex Ey. destruct (J i d x y Ed Ex Ey) as (a & b & Ea & Eb & _ & _ & C). exists a, b. auto.
    Qed.
  End Crossover.

  (** ---- OMOPSO ---- *)
  Lemma fnon_uniform_ok progress b lb ub up r x :
    repr rd progress -> 0 <= progress <= 1 -> 0 < b -> draw rd last r -> fits (lb, ub) x ->
    exists y, fnon_uniform rd pw top progress b lb ub up r x = Some y /\ fits (lb, ub) y /\
      (up = true -> x <= y) /\ (up = false -> y <= x) /\ (progress = 1 -> y = x).
  Proof.
    intros Rg Hg Hb [Hr Hd] (Bx & Rx & Rl & Ru). cbn [fst snd] in *. pose proof (last_lt _ _ _ _ _ A) as Hl.
    unfold fnon_uniform, fdelta.
    destruct (fpow_share (fsub rd 1 progress) b) as (g & Eg & Bg & _); [unfold fsub; split; [apply rd_ge0; lra|apply rd_le1; lra]|lra|].
    assert (Z : progress = 1 -> g = 0).
    { intros ->. unfold fsub in Eg. replace (1 - 1) with 0 in Eg by ring. rewrite r0 in Eg. unfold fpow in Eg.
      destruct (Rlt_dec 0 0); [lra|]. destruct (Req_EM_T 0 0); [|lra]. destruct (Rlt_dec b 0); [lra|]. injection Eg as <-.
      apply (pw_base_0 _ _ _ _ _ A). lra. }
    rewrite Eg. destruct (fpow_share r g) as (p & Ep & Bp & _); [lra|lra|]. rewrite Ep.
    assert (Z' : progress = 1 -> p = 1).
    { intro Hp. specialize (Z Hp). subst g. unfold fpow in Ep. pose proof (pw_exp_0 _ _ _ _ _ A r ltac:(lra)) as P0.
      destruct (Rlt_dec r 0); [lra|]. destruct (Req_EM_T r 0).
      - destruct (Rlt_dec 0 0); [lra|]. injection Ep as <-. exact P0.
      - destruct (Rlt_dec top (pw r 0)); [discriminate|]. injection Ep as <-. exact P0. }
    assert (S : 0 <= fsub rd 1 p) by (unfold fsub; apply rd_ge0; lra).
    set (z := if up then fsub rd ub x else fsub rd lb x).
    eexists. split; [reflexivity|].
    assert (B : forall v, lb <= Rmin (Rmax v lb) ub <= ub).
    { intro v. split; [apply Rmin_glb; [apply Rmax_r|lra]|apply Rmin_r]. }
    split; [|split; [|split]].
    - split; [apply B|]. split; [|auto]. unfold Rmin, Rmax. destruct (Rle_dec (fadd rd x _) lb); destruct (Rle_dec _ ub); auto; apply rr.
    - intros ->. assert (0 <= fmul rd z (fsub rd 1 p)).
      { unfold fmul. apply rd_ge0, Rmult_le_pos; [|exact S]. unfold z, fsub. apply rd_ge0. lra. }
      apply Rmin_glb; [|lra]. apply Rle_trans with (fadd rd x (fmul rd z (fsub rd 1 p))); [|apply Rmax_l].
      unfold fadd. apply rd_above; [exact Rx|lra].
    - intros ->. assert (fmul rd z (fsub rd 1 p) <= 0).
      { unfold fmul. apply rd_le0. assert (z <= 0) by (unfold z, fsub; apply rd_le0; lra).
        rewrite <- (Rmult_0_l (fsub rd 1 p)). apply Rmult_le_compat_r; assumption. }
      apply Rle_trans with (Rmax (fadd rd x (fmul rd z (fsub rd 1 p))) lb); [apply Rmin_l|]. apply Rmax_lub; [|lra].
      unfold fadd. apply rd_below; [exact Rx|lra].
    - intro Hp. rewrite (Z' Hp). unfold fsub at 1. replace (1 - 1) with 0 by ring. rewrite r0. unfold fmul. rewrite Rmult_0_r, r0.
      unfold fadd. rewrite Rplus_0_r, Rx. rewrite Rmax_left by lra. apply Rmin_left. lra.
  Qed.
End Rounded.
