(** The mail of distributed HGS: shapes of the system between deliveries, stray mail, and scatter/gather under every schedule. *)
From Verif Require Import Spec Base VarModel VarProofs HgsModel HgsSpec DhgsModel DhgsSpec.
From Coq Require Import QArith Permutation Wellfounded.
Local Open Scope nat_scope.

Lemma addr_eqb_eq a b : addr_eqb a b = true <-> a = b.
Proof. destruct a, b; cbn; split; intros H; try discriminate; try reflexivity.
  - apply Nat.eqb_eq in H. now subst.
  - inversion H. apply Nat.eqb_refl. Qed.
Lemma addr_eqb_refl a : addr_eqb a a = true. Proof. now apply addr_eqb_eq. Qed.

Definition upd {A} (f : nat -> A) (i : nat) (x : A) : nat -> A := fun j => if j =? i then x else f j.
Lemma upd_same {A} f i (x : A) : upd f i x i = x. Proof. unfold upd. now rewrite Nat.eqb_refl. Qed.
Lemma upd_other {A} f i (x : A) j : j <> i -> upd f i x j = f j.
Proof. unfold upd. intros H. apply Nat.eqb_neq in H. now rewrite H. Qed.

(** The letters of [out] for [b]. *)
Definition to (b : addr) (out : list (addr * message)) : list message := map snd (filter (fun l => addr_eqb (fst l) b) out).
Lemma to_app b o1 o2 : to b (o1 ++ o2) = to b o1 ++ to b o2.
Proof. unfold to. now rewrite filter_app, map_app. Qed.

(** Mail that is not part of an operation: HELLO, RESET and "done". *)
Definition weight (m : message) : nat := match m_body m with HHello => 1 | NReset _ _ => 2 | Done => 1 | _ => 0 end.
Definition weights (l : list message) : nat := list_sum (map weight l).
Lemma weights_app a b : weights (a ++ b) = weights a + weights b.
Proof. unfold weights. now rewrite map_app, list_sum_app. Qed.

Lemma weights_cons m q : weights (m :: q) = weight m + weights q. Proof. reflexivity. Qed.
Lemma weights_nil : weights [] = 0. Proof. reflexivity. Qed.
#[local] Arguments weights : simpl never.

Lemma sum_eq (f g : nat -> nat) l : (forall i, In i l -> f i = g i) -> list_sum (map f l) = list_sum (map g l).
Proof. intros H. f_equal. now apply map_ext_in. Qed.
Lemma sum_le (f g : nat -> nat) l : (forall i, f i <= g i) -> list_sum (map f l) <= list_sum (map g l).
Proof. intros H. induction l as [|a l IH]; cbn [map list_sum fold_right]; [lia|]. unfold list_sum in *. cbn [fold_right]. specialize (H a). lia. Qed.
Lemma sum_lt (f g : nat -> nat) l i : (forall j, f j <= g j) -> In i l -> f i < g i -> list_sum (map f l) < list_sum (map g l).
Proof.
  intros H. unfold list_sum. induction l as [|a l IH]; cbn [map fold_right In]; [tauto|]. intros [->|I] L; pose proof (sum_le f g l H) as K; unfold list_sum in K; [lia|].
  specialize (IH I L). specialize (H a). lia.
Qed.

Section Net.
  Context {drv draw : Type}.
  Variable dnew : nat -> draw -> list vec -> drv.
  Variable dstep : draw -> drv -> drv.
  Variable dcost : drv -> Z.
  Variable dfinal : draw -> drv -> drv * list vec.
  Variable ddelegates : drv -> list vec.
  Variable hv_of : list vec -> Q.
  Variable EPSILON : Q.
  Variable C : config.
  Variable W : nat -> nat -> ndraws draw.
  Variable Wnew : nat -> draw.
  Notation system := (system drv).
  Notation node := (node drv).
  Notation deliver := (deliver drv draw dnew dstep dcost dfinal ddelegates hv_of EPSILON C W Wnew).
  Notation receive := (receive drv draw dnew dstep dcost dfinal ddelegates hv_of EPSILON C W Wnew).
  Notation node_receive := (node_receive drv draw dnew dstep dcost dfinal ddelegates hv_of EPSILON C W Wnew).
  Notation sup_receive := (sup_receive C).
  Notation until := (until dnew dstep dcost dfinal ddelegates hv_of EPSILON C W Wnew).
  Notation fresh_node := (fresh_node drv draw dnew Wnew).
  Notation sup c := (c_sup drv c). Notation actor c i := (c_nodes drv c i). Notation mail c a b := (c_mail drv c a b).
  Implicit Types (c : system) (ns : list node).

  Lemma until_trans (Q P R : system -> Prop) c : until Q P c -> (forall c', P c' -> until Q R c') -> until Q R c.
  Proof.
    intros U H. induction U as [c Pc|c Qc E N _ IH]; [now apply H|]. apply until_later; auto.
  Qed.
  Lemma until_weaken (Q Q' P P' : system -> Prop) c :
    until Q P c -> (forall c', Q c' -> Q' c') -> (forall c', P c' -> P' c') -> until Q' P' c.
  Proof.
    intros U HQ HP. induction U as [c Pc|c Qc E N _ IH]; [apply until_now; auto|]. apply until_later; auto.
  Qed.

  (** Node [i] is [n], perhaps after reading its HELLO and RESET, and then has [rest] to read from the supervisor. *)
  Inductive view c (i : nat) (n : node) (rest : list message) : bool -> Prop :=
  | view_ready : a_node _ (actor c i) = Some n -> a_sup _ (actor c i) = Some Sup -> mail c Sup (Nd i) = rest -> view c i n rest true
  | view_reset k lv pop : a_node _ (actor c i) = None -> a_sup _ (actor c i) = Some Sup -> n = fresh_node i lv pop ->
      mail c Sup (Nd i) = mk (Sup, k) (NReset lv pop) :: rest -> view c i n rest false
  | view_hello k k' lv pop : a_node _ (actor c i) = None -> n = fresh_node i lv pop ->
      mail c Sup (Nd i) = mk (Sup, k') HHello :: mk (Sup, k) (NReset lv pop) :: rest -> view c i n rest false.

  Lemma view_frame c c' i n rest more b : view c i n rest b -> actor c' i = actor c i ->
    mail c' Sup (Nd i) = mail c Sup (Nd i) ++ more -> view c' i n (rest ++ more) b.
  Proof.
    intros V A M. destruct V as [V1 V2 V3|k lv pop V1 V2 V3 V4|k k' lv pop V1 V2 V3].
    - apply view_ready; rewrite ?A, ?M; congruence.
    - eapply view_reset; rewrite ?A, ?M; eauto. now rewrite V4.
    - eapply view_hello; rewrite ?A, ?M; eauto. now rewrite V3.
  Qed.
  Lemma view_same c c' i n rest b : view c i n rest b -> actor c' i = actor c i -> mail c' Sup (Nd i) = mail c Sup (Nd i) -> view c' i n rest b.
  Proof. intros V A M. rewrite <- (app_nil_r rest). apply view_frame with c; auto. now rewrite app_nil_r. Qed.

  Definition undone (l : list message) : list message := filter (fun m => match m_body m with Done => false | _ => true end) l.
  Lemma undone_app a b : undone (a ++ b) = undone a ++ undone b.
  Proof. apply filter_app. Qed.

  (** The whole system: the nodes [ns], the ready ones among them, and the mail of the operation in progress. *)
  Record shape c ns (R : nat -> Prop) (req rep : nat -> list message) (xs sx : list message) (peer : nat -> nat -> list message) : Prop := {
    sh_node : forall i n, nth_error ns i = Some n -> exists b, view c i n (req i) b /\ (R i -> b = true);
    sh_rep : forall i, i < length ns -> undone (mail c (Nd i) Sup) = rep i;
    sh_out : forall i, length ns <= i -> actor c i = blank drv /\ req i = [] /\ rep i = [] /\ mail c Sup (Nd i) = [] /\ mail c (Nd i) Sup = [];
    sh_xs : mail c Ext Sup = xs;
    sh_sx : mail c Sup Ext = sx;
    sh_peer : forall i j, mail c (Nd i) (Nd j) = peer i j;
    sh_none : mail c Sup Sup = [] /\ mail c Ext Ext = [] /\ forall i, mail c Ext (Nd i) = [] /\ mail c (Nd i) Ext = []
  }.

  Lemma shape_ext c ns (R R' : nat -> Prop) req req' rep rep' xs sx peer peer' :
    shape c ns R req rep xs sx peer -> (forall i, R' i -> R i) -> (forall i, req i = req' i) -> (forall i, rep i = rep' i) ->
    (forall i j, peer i j = peer' i j) -> shape c ns R' req' rep' xs sx peer'.
  Proof.
    intros S HR Hq Hp He. destruct S. split; auto.
    - intros i n Hn. destruct (sh_node0 i n Hn) as (b & V & Hb). exists b. rewrite <- Hq. auto.
    - intros i Hi. rewrite <- Hp. auto.
    - intros i Hi. rewrite <- Hp, <- Hq. auto.
    - intros i j. rewrite <- He. auto.
  Qed.

  Definition stray c (ns : list node) : nat :=
    list_sum (map (fun i => weights (mail c Sup (Nd i)) + weights (mail c (Nd i) Sup)) (seq 0 (length ns))).

  (** What stray mail leaves alone. *)
  Definition kept c c' (ns : list node) (req : nat -> list message) : Prop :=
    sup c' = sup c /\ answers c' = answers c /\ visited c' = visited c /\
    forall i n, nth_error ns i = Some n -> view c i n (req i) true -> actor c' i = actor c i /\ view c' i n (req i) true.
  Lemma kept_refl c ns req : kept c c ns req.
  Proof. repeat split; auto. Qed.
  Lemma kept_trans c1 c2 c3 ns req : kept c1 c2 ns req -> kept c2 c3 ns req -> kept c1 c3 ns req.
  Proof.
    intros (A1 & A2 & A3 & A4) (B1 & B2 & B3 & B4). repeat split; try congruence.
    - destruct (A4 _ _ H H0) as (E1 & V1). destruct (B4 _ _ H V1). congruence.
    - destruct (A4 _ _ H H0) as (E1 & V1). destruct (B4 _ _ H V1). congruence.
  Qed.

  (** A delivery of mail that belongs to the operation. *)
  Inductive real c ns (req rep : nat -> list message) (xs sx : list message) (peer : nat -> nat -> list message) : outcome system -> Prop :=
  | real_req i n m q : nth_error ns i = Some n -> view c i n (req i) true -> req i = m :: q -> real c ns req rep xs sx peer (receive c Sup (Nd i) m q)
  | real_rep i m q : i < length ns -> rep i = m :: undone q -> mail c (Nd i) Sup = m :: q -> real c ns req rep xs sx peer (receive c (Nd i) Sup m q)
  | real_xs m q : xs = m :: q -> real c ns req rep xs sx peer (receive c Ext Sup m q)
  | real_sx m q : sx = m :: q -> real c ns req rep xs sx peer (receive c Sup Ext m q)
  | real_peer i j m q : peer i j = m :: q -> real c ns req rep xs sx peer (receive c (Nd i) (Nd j) m q).

  Lemma flat_map_snoc {A B} (f : A -> list B) l x : flat_map f (l ++ [x]) = flat_map f l ++ f x.
  Proof. rewrite flat_map_app. cbn. now rewrite app_nil_r. Qed.

  Lemma nth_lt {A} (l : list A) i : i < length l -> exists x, nth_error l i = Some x.
  Proof. intros H. destruct (nth_error l i) eqn:E; [eauto|]. apply nth_error_None in E. lia. Qed.

  (** Mail after a message has been taken and the receiver has posted [out]. *)
  Lemma mail_after b0 a0 q out M a b : put b0 out (taken_out a0 b0 q M) a b =
    (if addr_eqb a a0 && addr_eqb b b0 then q else M a b) ++ (if addr_eqb a b0 then to b out else []).
  Proof. reflexivity. Qed.

  Lemma neqb i j : i <> j -> (i =? j) = false. Proof. apply Nat.eqb_neq. Qed.

  Lemma set_nth_at {A} (l : list A) i n x : nth_error l i = Some n -> nth_error (set_nth i x l) i = Some x.
  Proof. intros H. rewrite nth_error_set_nth, Nat.eqb_refl, H. reflexivity. Qed.
  Lemma set_nth_off {A} (l : list A) i j x : j <> i -> nth_error (set_nth i x l) j = nth_error l j.
  Proof. intros H. rewrite nth_error_set_nth, neqb; auto. Qed.

  (** HELLO and RESET *)
  Lemma stray_to_node c ns R req rep xs sx peer i n m q a' out : shape c ns R req rep xs sx peer -> nth_error ns i = Some n ->
    mail c Sup (Nd i) = m :: q -> 0 < weight m -> weights (to Sup out) < weight m -> Forall (fun l => fst l = Sup /\ is_true (negb (weight (snd l) =? 0)) /\ undone [snd l] = []) out ->
    node_receive i (actor c i) Sup m = Ok (a', out) ->
    (forall c', actor c' i = a' -> mail c' Sup (Nd i) = q -> exists b, view c' i n (req i) b /\ (R i -> b = true)) ->
    (forall r, ~ view c i n r true) ->
    exists c', receive c Sup (Nd i) m q = Ok c' /\ shape c' ns R req rep xs sx peer /\ kept c c' ns req /\ stray c' ns < stray c ns.
  Proof.
    intros S Hn E Wm Wo Fo Er Hv Nr. destruct S as [S1 S2 S3 S4 S5 S6 (S7 & S8 & S9)].
    assert (Hi : i < length ns) by (apply nth_error_Some; congruence).
    assert (To : forall b, b <> Sup -> to b out = []).
    { intros b Hb. unfold to. clear - Fo Hb. induction Fo as [|[x y] l (H1 & _) _ IH]; [reflexivity|]. cbn in H1. cbn. subst x.
      destruct (addr_eqb Sup b) eqn:Eb; [apply addr_eqb_eq in Eb; congruence|auto]. }
    assert (Un : undone (to Sup out) = []).
    { unfold to. clear - Fo. induction Fo as [|[x y] l (H1 & H2 & H3) _ IH]; [reflexivity|]. cbn in *. subst x. cbn. 
      destruct (m_body y); cbn in *; auto; discriminate. }
    unfold DhgsModel.receive. rewrite Er. cbn [bind]. eexists. split; [reflexivity|]. split; [|split].
    - split; cbn [c_sup c_nodes c_mail]; auto.
      + intros j nj Hj. destruct (Nat.eq_dec j i) as [->|Ne].
        * rewrite Hn in Hj. injection Hj as <-. apply Hv; cbn [c_nodes c_mail].
          -- now rewrite Nat.eqb_refl.
          -- rewrite mail_after. cbn. rewrite Nat.eqb_refl. now rewrite app_nil_r.
        * destruct (S1 j nj Hj) as (b & V & Rb). exists b. split; auto. eapply view_same; [exact V| |]; cbn [c_nodes c_mail].
          -- now rewrite neqb.
          -- rewrite mail_after. cbn. rewrite neqb by auto. now rewrite app_nil_r.
      + intros j Hj. rewrite mail_after. cbn. rewrite undone_app, S2 by auto. destruct (j =? i); rewrite ?Un; now rewrite app_nil_r.
      + intros j Hj. assert (j <> i) by lia. rewrite !mail_after. cbn. rewrite !neqb by auto. rewrite !app_nil_r. apply S3; auto.
      + rewrite mail_after. cbn. now rewrite app_nil_r.
      + rewrite mail_after. cbn. now rewrite app_nil_r.
      + intros j j'. rewrite mail_after. cbn. rewrite S6. destruct (j =? i); rewrite ?To by discriminate; now rewrite app_nil_r.
      + split; [rewrite mail_after; cbn; now rewrite app_nil_r|split; [rewrite mail_after; cbn; now rewrite app_nil_r|]]. intros j. rewrite !mail_after. cbn. rewrite !app_nil_r.
        destruct (S9 j) as (Q1 & Q2). rewrite Q2. split; [auto|]. destruct (j =? i); rewrite ?To by discriminate; auto.
    - repeat split; cbn [c_sup c_nodes c_mail c_trace]; auto.
      + unfold answers. cbn [c_trace]. rewrite flat_map_snoc. now rewrite app_nil_r.
      + unfold visited. cbn [c_trace]. rewrite flat_map_snoc. unfold weight in Wm. destruct (m_body m); cbn; rewrite ?app_nil_r; auto. cbn in Wm. lia.
      + destruct (Nat.eq_dec i0 i) as [->|Ne]; [|now rewrite neqb]. rewrite Hn in H. injection H as <-. now destruct (Nr _ H0).
      + destruct (Nat.eq_dec i0 i) as [->|Ne].
        * rewrite Hn in H. injection H as <-. now destruct (Nr _ H0).
        * eapply view_same; [exact H0| |]; cbn [c_nodes c_mail]; [now rewrite neqb|]. rewrite mail_after. cbn. rewrite neqb by auto. now rewrite app_nil_r.
    - unfold stray. apply sum_lt with i.
      + intros j. cbn [c_mail]. rewrite !mail_after. cbn. rewrite app_nil_r, weights_app. destruct (Nat.eqb_spec j i) as [->|Ne]; [|rewrite weights_nil; lia].
        rewrite E, weights_cons. cbn. lia.
      + apply in_seq. lia.
      + cbn [c_mail]. rewrite !mail_after. cbn. rewrite app_nil_r, weights_app, Nat.eqb_refl, E, weights_cons. cbn. lia.
  Qed.

  Lemma shape_deliver c ns R req rep xs sx peer o : shape c ns R req rep xs sx peer -> deliver c o ->
    (exists c', o = Ok c' /\ shape c' ns R req rep xs sx peer /\ kept c c' ns req /\ stray c' ns < stray c ns) \/
    real c ns req rep xs sx peer o.
  Proof.
    intros Sh D. destruct D as [from to_ m q E]. pose proof Sh as [S1 S2 S3 S4 S5 S6 (S7 & S8 & S9)].
    destruct from as [| |i].
    - (* Ext *) destruct to_ as [| |j].
      + rewrite S8 in E. discriminate.
      + right. apply real_xs. congruence.
      + rewrite (proj1 (S9 j)) in E. discriminate.
    - (* Sup *) destruct to_ as [| |i].
      + right. apply real_sx. congruence.
      + rewrite S7 in E. discriminate.
      + destruct (Nat.lt_ge_cases i (length ns)) as [Hi|Hi].
        2:{ destruct (S3 i Hi) as (_ & _ & _ & Z & _). rewrite Z in E. discriminate. }
        destruct (nth_lt ns i Hi) as (n & Hn). destruct (S1 i n Hn) as (b & V & Rb).
        destruct V as [V1 V2 V3|k lv pop V1 V2 V3 V4|k k' lv pop V1 V2 V3].
        * right. apply real_req with (n := n); [exact Hn|constructor; auto|congruence].
        * (* RESET *) left. rewrite V4 in E. injection E as <- <-.
          eapply stray_to_node with (1 := Sh); [exact Hn|exact V4|cbn; lia| | | | |].
          -- shelve.
          -- shelve.
          -- unfold DhgsModel.node_receive. cbn [m_id m_body]. reflexivity.
          -- intros c' A M. exists true. split; auto. constructor; rewrite ?A; cbn; try congruence.
          -- intros r V. inversion V. congruence.
          Unshelve. ++ unfold weights; cbn; lia. ++ repeat constructor.
        * (* HELLO *) left. rewrite V3 in E. injection E as <- <-.
          eapply stray_to_node with (1 := Sh); [exact Hn|exact V3|cbn; lia| | | | |].
          -- shelve.
          -- shelve.
          -- unfold DhgsModel.node_receive. cbn [m_id m_body]. reflexivity.
          -- intros c' A M. exists false. split; [|exact Rb]. eapply view_reset; rewrite ?A; cbn; eauto.
          -- intros r V. inversion V. congruence.
          Unshelve. ++ unfold weights; cbn; lia. ++ constructor.
    - (* a node *) destruct to_ as [| |j].
      + rewrite (proj2 (S9 i)) in E. discriminate.
      + destruct (Nat.lt_ge_cases i (length ns)) as [Hi|Hi].
        2:{ destruct (S3 i Hi) as (_ & _ & _ & _ & Z). rewrite Z in E. discriminate. }
        pose proof (S2 i Hi) as U. rewrite E in U. cbn in U.
        assert (m_body m = Done \/ m_body m <> Done) as [Dm|Dm] by (destruct (m_body m); try (left; reflexivity); right; discriminate).
        * (* done *) left. rewrite Dm in U. unfold DhgsModel.receive, DhgsModel.sup_receive. rewrite Dm. cbn [bind]. eexists. split; [reflexivity|].
          assert (Hm : forall a b, put Sup [] (taken_out (Nd i) Sup q (c_mail drv c)) a b = if addr_eqb a (Nd i) && addr_eqb b Sup then q else mail c a b).
          { intros. rewrite mail_after. unfold to. cbn. destruct (addr_eqb a Sup); apply app_nil_r. }
          split; [|split].
          -- split; cbn [c_sup c_nodes c_mail]; intros; rewrite ?Hm; cbn; auto.
             ++ destruct (S1 i0 n H) as (b & V & Rb). exists b. split; auto. eapply view_same; [exact V|reflexivity|]. cbn [c_mail]. now rewrite Hm.
             ++ destruct (Nat.eqb_spec i0 i) as [->|Ne]; cbn; auto.
             ++ rewrite neqb by lia. cbn. auto.
             ++ rewrite andb_false_r. auto.
             ++ split; [auto|split; [auto|]]. intros j. specialize (S9 j). cbn. unfold taken_out. cbn. rewrite ?app_nil_r, ?andb_false_r. apply S9.
          -- repeat split; cbn [c_sup c_nodes c_mail c_trace]; auto.
             ++ unfold answers. cbn [c_trace]. rewrite flat_map_snoc. now rewrite app_nil_r.
             ++ unfold visited. cbn [c_trace]. rewrite flat_map_snoc. now rewrite app_nil_r.
             ++ eapply view_same; [exact H0|reflexivity|]. cbn [c_mail]. now rewrite Hm.
          -- unfold stray. apply sum_lt with i.
             ++ intros j. cbn [c_mail]. rewrite !Hm. cbn. destruct (Nat.eqb_spec j i) as [->|Ne]; cbn; [|lia].
                rewrite E, weights_cons. lia.
             ++ apply in_seq. lia.
             ++ cbn [c_mail]. rewrite !Hm. cbn. rewrite Nat.eqb_refl, E. cbn. rewrite weights_cons. unfold weight. rewrite Dm. lia.
        * right. apply real_rep; auto. rewrite <- U. destruct (m_body m); try reflexivity; congruence.
      + right. apply real_peer. congruence.
  Qed.

  (** While only stray mail is delivered nothing happens; so it is enough to look at the deliveries that matter. *)
  Lemma drift (Q P : system -> Prop) ns R req rep xs sx peer c :
    shape c ns R req rep xs sx peer ->
    (forall c1, kept c c1 ns req -> Q c1) ->
    (exists i j, (i < length ns /\ req i <> []) \/ (i < length ns /\ rep i <> []) \/ xs <> [] \/ sx <> [] \/ peer i j <> []) ->
    (forall c1 o, shape c1 ns R req rep xs sx peer -> kept c c1 ns req -> real c1 ns req rep xs sx peer o -> exists c2, o = Ok c2 /\ until Q P c2) ->
    until Q P c.
  Proof.
    intros Sh HQ HE HR.
    assert (G : forall k c1, stray c1 ns < k -> shape c1 ns R req rep xs sx peer -> kept c c1 ns req -> until Q P c1).
    2:{ apply (G (S (stray c ns)) c); auto. apply kept_refl. }
    intros k. induction k as [|k IH]; intros c1 L Sh1 K1; [lia|].
    apply until_later; [now apply HQ| | |].
    - destruct Sh1 as [T1 T2 T3 T4 T5 T6 T7]. destruct HE as (i & j & HE).
      assert (X : exists a b, mail c1 a b <> []).
      { destruct HE as [(Hi & HE)|[(Hi & HE)|[HE|[HE|HE]]]].
        - destruct (nth_lt ns i Hi) as (n & Hn). destruct (T1 i n Hn) as (b & V & _). exists Sup, (Nd i). destruct V as [_ _ V|? ? ? ? ? ? V|? ? ? ? ? ? V]; rewrite V; try discriminate. exact HE.
        - exists (Nd i), Sup. intros Z. rewrite <- (T2 i Hi), Z in HE. now apply HE.
        - exists Ext, Sup. now rewrite T4.
        - exists Sup, Ext. now rewrite T5.
        - exists (Nd i), (Nd j). now rewrite T6. }
      destruct X as (a & b & X). destruct (mail c1 a b) as [|m q] eqn:E; [congruence|]. eexists. econstructor. exact E.
    - intros o D. destruct (shape_deliver _ _ _ _ _ _ _ _ _ Sh1 D) as [(c2 & -> & Sh2 & K2 & L2)|Rl]; [now exists c2|].
      destruct (HR c1 o) as (c2 & E & _); eauto.
    - intros c2 D. destruct (shape_deliver _ _ _ _ _ _ _ _ _ Sh1 D) as [(c3 & [= <-] & Sh2 & K2 & L2)|Rl].
      + apply IH; auto; [lia|]. eapply kept_trans; eauto.
      + destruct (HR c1 _ Sh1 K1 Rl) as (c3 & [= <-] & U). exact U.
  Qed.

  Definition is_release (m : message) : bool := match m_body m with NReleaseSprouts _ => true | _ => false end.

  (** A ready node handles a message of the supervisor. *)
  Lemma effect_request c ns R req rep xs sx peer i n m q a' n' out :
    shape c ns R req rep xs sx peer -> nth_error ns i = Some n -> view c i n (req i) true -> req i = m :: q ->
    node_receive i (actor c i) Sup m = Ok (a', out) -> a_node _ a' = Some n' -> a_sup _ a' = Some Sup -> to Ext out = [] ->
    exists c', receive c Sup (Nd i) m q = Ok c' /\
      shape c' (set_nth i n' ns) (fun j => R j \/ j = i) (upd req i q) (upd rep i (rep i ++ undone (to Sup out))) xs sx
        (fun a b => peer a b ++ if a =? i then to (Nd b) out else []) /\
      sup c' = sup c /\ (forall j, actor c' j = if j =? i then a' else actor c j) /\ answers c' = answers c /\
      visited c' = visited c ++ (if is_release m then [i] else []).
  Proof.
    intros S Hn V Hr Er An As Ox. destruct S as [S1 S2 S3 S4 S5 S6 (S7 & S8 & S9)].
    assert (Hi : i < length ns) by (apply nth_error_Some; congruence).
    unfold DhgsModel.receive. rewrite Er. cbn [bind]. eexists. split; [reflexivity|]. split; [|split; [|split; [|split]]]; cbn [c_sup c_nodes]; auto.
    - split; cbn [c_sup c_nodes c_mail].
      + intros j nj Hj. destruct (Nat.eq_dec j i) as [->|Ne].
        * rewrite set_nth_at with (n := n) in Hj by auto. injection Hj as <-. exists true. split; auto.
          constructor; cbn [c_nodes c_mail]; rewrite ?Nat.eqb_refl; auto. rewrite mail_after. cbn. rewrite Nat.eqb_refl, app_nil_r. now rewrite upd_same.
        * rewrite set_nth_off in Hj by auto. destruct (S1 j nj Hj) as (b & Vj & Rb). exists b. split; [|intros [?|?]; [auto|congruence]].
          rewrite upd_other by auto. eapply view_same; [exact Vj| |]; cbn [c_nodes c_mail].
          -- now rewrite neqb.
          -- rewrite mail_after. cbn. rewrite neqb by auto. now rewrite app_nil_r.
      + intros j Hj. rewrite set_nth_length in Hj. rewrite mail_after. cbn. destruct (Nat.eqb_spec j i) as [->|Ne].
        * rewrite undone_app, upd_same, S2; auto.
        * rewrite upd_other by auto. rewrite app_nil_r. auto.
      + intros j Hj. rewrite set_nth_length in Hj. assert (j <> i) by lia. rewrite !mail_after. cbn. rewrite !upd_other, !neqb by auto. rewrite !app_nil_r. apply S3; auto.
      + rewrite mail_after. cbn. now rewrite app_nil_r.
      + rewrite mail_after. cbn. now rewrite app_nil_r.
      + intros j j'. rewrite mail_after. cbn. now rewrite S6.
      + split; [rewrite mail_after; cbn; now rewrite app_nil_r|split; [rewrite mail_after; cbn; now rewrite app_nil_r|]].
        intros j. rewrite !mail_after. cbn. rewrite Ox, !app_nil_r. destruct (S9 j) as (Q1 & Q2). rewrite Q2. destruct (j =? i); auto.
    - unfold answers. cbn [c_trace]. rewrite flat_map_snoc. now rewrite app_nil_r.
    - unfold visited. cbn [c_trace]. rewrite flat_map_snoc. unfold is_release. destruct (m_body m); auto.
  Qed.

  (** A ready node handles a message of another node. *)
  Lemma effect_peer c ns R req rep xs sx peer p i n m q a' n' out :
    shape c ns R req rep xs sx peer -> nth_error ns i = Some n -> view c i n (req i) true -> peer p i = m :: q ->
    node_receive i (actor c i) (Nd p) m = Ok (a', out) -> a_node _ a' = Some n' -> a_sup _ a' = Some Sup -> to Ext out = [] ->
    exists c', receive c (Nd p) (Nd i) m q = Ok c' /\
      shape c' (set_nth i n' ns) (fun j => R j \/ j = i) req (upd rep i (rep i ++ undone (to Sup out))) xs sx
        (fun a b => (if (a =? p) && (b =? i) then q else peer a b) ++ if a =? i then to (Nd b) out else []) /\
      sup c' = sup c /\ (forall j, actor c' j = if j =? i then a' else actor c j) /\ answers c' = answers c /\
      visited c' = visited c ++ (if is_release m then [i] else []).
  Proof.
    intros S Hn V Hr Er An As Ox. destruct S as [S1 S2 S3 S4 S5 S6 (S7 & S8 & S9)].
    assert (Hi : i < length ns) by (apply nth_error_Some; congruence).
    unfold DhgsModel.receive. rewrite Er. cbn [bind]. eexists. split; [reflexivity|]. split; [|split; [|split; [|split]]]; cbn [c_sup c_nodes]; auto.
    - split; cbn [c_sup c_nodes c_mail].
      + intros j nj Hj. destruct (Nat.eq_dec j i) as [->|Ne].
        * rewrite set_nth_at with (n := n) in Hj by auto. injection Hj as <-. exists true. split; auto.
          constructor; cbn [c_nodes c_mail]; rewrite ?Nat.eqb_refl; auto. rewrite mail_after. cbn. rewrite app_nil_r. inversion V; auto.
        * rewrite set_nth_off in Hj by auto. destruct (S1 j nj Hj) as (b & Vj & Rb). exists b. split; [|intros [?|?]; [auto|congruence]].
          eapply view_same; [exact Vj| |]; cbn [c_nodes c_mail].
          -- now rewrite neqb.
          -- rewrite mail_after. cbn. now rewrite app_nil_r.
      + intros j Hj. rewrite set_nth_length in Hj. rewrite mail_after. cbn. rewrite andb_false_r. destruct (Nat.eqb_spec j i) as [->|Ne].
        * rewrite undone_app, upd_same, S2; auto.
        * rewrite upd_other by auto. rewrite app_nil_r. auto.
      + intros j Hj. rewrite set_nth_length in Hj. assert (j <> i) by lia. rewrite !mail_after. cbn. rewrite !upd_other, !(neqb _ _ H), andb_false_r by auto.
        rewrite !app_nil_r. apply S3; auto.
      + rewrite mail_after. cbn. now rewrite app_nil_r.
      + rewrite mail_after. cbn. now rewrite app_nil_r.
      + intros j j'. rewrite mail_after. cbn. now rewrite S6.
      + split; [rewrite mail_after; cbn; now rewrite app_nil_r|split; [rewrite mail_after; cbn; now rewrite app_nil_r|]].
        intros j. rewrite !mail_after. cbn. rewrite Ox, ?andb_false_r, !app_nil_r. destruct (S9 j) as (Q1 & Q2). rewrite Q2. destruct (j =? i); auto.
    - unfold answers. cbn [c_trace]. rewrite flat_map_snoc. now rewrite app_nil_r.
    - unfold visited. cbn [c_trace]. rewrite flat_map_snoc. unfold is_release. destruct (m_body m); auto.
  Qed.

  (** The supervisor handles an answer of node [i]. *)
  Lemma effect_reply c ns R req rep xs sx peer i m q s' out :
    shape c ns R req rep xs sx peer -> i < length ns -> rep i = m :: undone q -> mail c (Nd i) Sup = m :: q ->
    sup_receive (sup c) (Nd i) m = Ok (s', out) -> to Sup out = [] -> (forall j, length ns <= j -> to (Nd j) out = []) ->
    exists c', receive c (Nd i) Sup m q = Ok c' /\
      shape c' ns R (fun j => req j ++ to (Nd j) out) (upd rep i (undone q)) xs (sx ++ to Ext out) peer /\
      sup c' = s' /\ (forall j, actor c' j = actor c j) /\ answers c' = answers c /\ visited c' = visited c.
  Proof.
    intros S Hi Hr Hm Er Os Oj. destruct S as [S1 S2 S3 S4 S5 S6 (S7 & S8 & S9)].
    unfold DhgsModel.receive. rewrite Er. cbn [bind]. eexists. split; [reflexivity|]. split; [|split; [|split; [|split]]]; cbn [c_sup c_nodes]; auto.
    - split; cbn [c_sup c_nodes c_mail].
      + intros j nj Hj. destruct (S1 j nj Hj) as (b & V & Rb). exists b. split; auto. eapply view_frame; [exact V|reflexivity|].
        cbn [c_mail]. rewrite mail_after. reflexivity.
      + intros j Hj. rewrite mail_after. cbn. rewrite app_nil_r. destruct (Nat.eqb_spec j i) as [->|Ne]; cbn.
        * now rewrite upd_same.
        * rewrite upd_other; auto.
      + intros j Hj. assert (j <> i) by lia. rewrite !mail_after. cbn. rewrite !upd_other, !neqb, Oj by auto. cbn. rewrite !app_nil_r. apply S3; auto.
      + rewrite mail_after. cbn. now rewrite app_nil_r.
      + rewrite mail_after. cbn. now rewrite S5.
      + intros j j'. rewrite mail_after. cbn. now rewrite app_nil_r, andb_false_r, S6.
      + split; [rewrite mail_after; cbn; now rewrite Os, app_nil_r|split; [rewrite mail_after; cbn; now rewrite app_nil_r|]].
        intros j. rewrite !mail_after. cbn. rewrite !app_nil_r, andb_false_r. apply S9.
    - unfold answers. cbn [c_trace]. rewrite flat_map_snoc. now rewrite app_nil_r.
    - unfold visited. cbn [c_trace]. rewrite flat_map_snoc. now rewrite app_nil_r.
  Qed.

  (** The supervisor handles a request of the caller. *)
  Lemma effect_ask c ns R req rep xs sx peer m q s' out :
    shape c ns R req rep xs sx peer -> xs = m :: q ->
    sup_receive (sup c) Ext m = Ok (s', out) -> to Sup out = [] -> (forall j, length ns <= j -> to (Nd j) out = []) ->
    exists c', receive c Ext Sup m q = Ok c' /\
      shape c' ns R (fun j => req j ++ to (Nd j) out) rep q (sx ++ to Ext out) peer /\
      sup c' = s' /\ (forall j, actor c' j = actor c j) /\ answers c' = answers c /\ visited c' = visited c.
  Proof.
    intros S Hx Er Os Oj. destruct S as [S1 S2 S3 S4 S5 S6 (S7 & S8 & S9)].
    unfold DhgsModel.receive. rewrite Er. cbn [bind]. eexists. split; [reflexivity|]. split; [|split; [|split; [|split]]]; cbn [c_sup c_nodes]; auto.
    - split; cbn [c_sup c_nodes c_mail].
      + intros j nj Hj. destruct (S1 j nj Hj) as (b & V & Rb). exists b. split; auto. eapply view_frame; [exact V|reflexivity|].
        cbn [c_mail]. rewrite mail_after. reflexivity.
      + intros j Hj. rewrite mail_after. cbn. rewrite app_nil_r. auto.
      + intros j Hj. rewrite !mail_after. cbn. rewrite Oj by auto. rewrite !app_nil_r. apply S3; auto.
      + rewrite mail_after. cbn. now rewrite app_nil_r.
      + rewrite mail_after. cbn. now rewrite S5.
      + intros j j'. rewrite mail_after. cbn. now rewrite app_nil_r, S6.
      + split; [rewrite mail_after; cbn; now rewrite Os, app_nil_r|split; [rewrite mail_after; cbn; now rewrite app_nil_r|]].
        intros j. rewrite !mail_after. cbn. rewrite !app_nil_r. apply S9.
    - unfold answers. cbn [c_trace]. rewrite flat_map_snoc. now rewrite app_nil_r.
    - unfold visited. cbn [c_trace]. rewrite flat_map_snoc. now rewrite app_nil_r.
  Qed.

  (** The caller receives an answer. *)
  Lemma effect_answer c ns R req rep xs sx peer m q :
    shape c ns R req rep xs sx peer -> sx = m :: q ->
    exists c', receive c Sup Ext m q = Ok c' /\ shape c' ns R req rep xs q peer /\
      sup c' = sup c /\ (forall j, actor c' j = actor c j) /\ answers c' = answers c ++ [m] /\ visited c' = visited c.
  Proof.
    intros S Hx. destruct S as [S1 S2 S3 S4 S5 S6 (S7 & S8 & S9)].
    unfold DhgsModel.receive. eexists. split; [reflexivity|]. split; [|split; [|split; [|split]]]; cbn [c_sup c_nodes]; auto.
    - split; cbn [c_sup c_nodes c_mail]; unfold taken_out; cbn; auto.
      intros j nj Hj. destruct (S1 j nj Hj) as (b & V & Rb). exists b. split; auto. eapply view_same; [exact V|reflexivity|]. reflexivity.
    - unfold answers. cbn [c_trace]. now rewrite flat_map_snoc.
    - unfold visited. cbn [c_trace]. rewrite flat_map_snoc. now rewrite app_nil_r.
  Qed.

  (** The supervisor registers a sprout of node [i]. *)
  Lemma effect_register c ns R req rep xs sx peer i m q s' k lv pop m' :
    shape c ns R req rep xs sx peer -> i < length ns -> rep i = m :: undone q -> mail c (Nd i) Sup = m :: q ->
    sup_receive (sup c) (Nd i) m = Ok (s', create_node (Sup, k) (length ns) lv pop ++ [(Nd i, m')]) ->
    (forall j, R j -> j < length ns) -> (forall j, peer j (length ns) = []) ->
    exists c', receive c (Nd i) Sup m q = Ok c' /\
      shape c' (ns ++ [fresh_node (length ns) lv pop]) R (fun j => req j ++ if j =? i then [m'] else []) (upd rep i (undone q)) xs sx peer /\
      sup c' = s' /\ (forall j, actor c' j = actor c j) /\ answers c' = answers c /\ visited c' = visited c.
  Proof.
    intros S Hi Hr Hm Er HR Hp. destruct S as [S1 S2 S3 S4 S5 S6 (S7 & S8 & S9)].
    destruct (S3 (length ns) (le_n _)) as (B1 & B2 & B3 & B4 & B5).
    assert (To : forall j, j <> length ns -> to (Nd j) (create_node (Sup, k) (length ns) lv pop ++ [(Nd i, m')]) = if j =? i then [m'] else []).
    { intros j Hj. unfold to. cbn. rewrite (neqb (length ns) j) by auto. cbn. rewrite (Nat.eqb_sym i j). destruct (j =? i); reflexivity. }
    unfold DhgsModel.receive. rewrite Er. cbn [bind]. eexists. split; [reflexivity|]. split; [|split; [|split; [|split]]]; cbn [c_sup c_nodes]; auto.
    - split; cbn [c_sup c_nodes c_mail].
      + intros j nj Hj. destruct (Nat.eq_dec j (length ns)) as [->|Ne].
        * rewrite nth_error_app2, Nat.sub_diag in Hj by lia. injection Hj as <-. exists false. split; [|intros Rj; apply HR in Rj; lia].
          eapply view_hello with (lv := lv) (pop := pop); cbn [c_nodes c_mail]; [now rewrite B1|reflexivity|].
          rewrite mail_after. cbn [addr_eqb andb]. rewrite B4, B2. unfold to. cbn. rewrite Nat.eqb_refl. cbn. rewrite neqb by lia. rewrite neqb by lia. reflexivity.
        * assert (Hj' : j < length ns). { assert (X : nth_error (ns ++ [fresh_node (length ns) lv pop]) j <> None) by congruence. apply nth_error_Some in X. rewrite app_length in X. cbn in X. lia. }
          rewrite nth_error_app1 in Hj by auto. destruct (S1 j nj Hj) as (b & V & Rb). exists b. split; auto. eapply view_frame; [exact V|reflexivity|].
          cbn [c_mail]. rewrite mail_after. cbn [addr_eqb andb]. now rewrite To.
      + intros j Hj. rewrite app_length in Hj. cbn in Hj. rewrite mail_after. cbn [addr_eqb andb]. rewrite app_nil_r. destruct (Nat.eqb_spec j i) as [->|Ne]; cbn.
        * now rewrite upd_same.
        * rewrite upd_other by auto. destruct (Nat.eq_dec j (length ns)) as [->|Ne']; [now rewrite B5, B3|]. apply S2. lia.
      + intros j Hj. rewrite app_length in Hj. cbn in Hj. assert (j <> i) by lia. rewrite !mail_after. cbn [addr_eqb andb]. rewrite To by lia.
        rewrite upd_other, !neqb by auto. cbn. rewrite !app_nil_r. apply S3. lia.
      + rewrite mail_after. cbn. now rewrite app_nil_r.
      + rewrite mail_after. cbn. unfold to. cbn. now rewrite S5, app_nil_r.
      + intros j j'. rewrite mail_after. cbn. now rewrite app_nil_r, andb_false_r, S6.
      + split; [rewrite mail_after; unfold to; cbn; now rewrite app_nil_r|split; [rewrite mail_after; cbn; now rewrite app_nil_r|]].
        intros j. rewrite !mail_after. cbn. rewrite !app_nil_r, andb_false_r. apply S9.
    - unfold answers. cbn [c_trace]. rewrite flat_map_snoc. now rewrite app_nil_r.
    - unfold visited. cbn [c_trace]. rewrite flat_map_snoc. now rewrite app_nil_r.
  Qed.
End Net.
