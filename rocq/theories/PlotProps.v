(** What the plotting commands draw (C129-C133). *)
From Coq Require Import Reals Qreals Lqa Lra.
From Verif Require Import StatModel StatSpec StatProofs StatBoot StatRank StatTable StatProps SortProofs Base.
From Verif Require Import DomModel Spec.
From Verif Require Import PlotModel PlotSpec PlotProofs PlotSummary PlotFronts.
Local Open Scope Q_scope.
Local Open Scope list_scope.

(** ** C129: violins *)

(** One picture for every problem and metric; in it the algorithms of the legend, in its order, that
    have values other than zero in the accepted result, each with the values of its runs.  Nothing is
    missing unless matplotlib refuses to draw. *)
Theorem C129_violins : forall boot_size randint drawable stored,
  (1 <= boot_size)%nat -> (forall c, fair (randint c)) -> tidy stored ->
  exists figs, violin boot_size randint drawable stored = Some figs
    /\ NoDup (map (fun f => (v_problem f, v_metric f)) figs)
    /\ (forall f, In f figs -> exists algos, In (v_problem f, algos) stored /\ drawn_metric (v_metric f)
           /\ v_drawn f <> []
           /\ selects (fun a => exists values, violin_of algos (v_metric f) a values)
                      curve_names (map fst (v_drawn f))
           /\ forall a values, In (a, values) (v_drawn f) -> violin_of algos (v_metric f) a values)
    /\ ((forall data, drawable data = true) ->
        forall p algos m a values, In (p, algos) stored -> drawn_metric m -> In a curve_names ->
          violin_of algos m a values ->
          exists f, In f figs /\ v_problem f = p /\ v_metric f = m).
Proof. intros bs ri dr st B F T. exact (violin_ok bs ri B F dr st T). Qed.
Print Assumptions C129_violins.

(** *** Stored results used in examples: budget or time, costs and hypervolumes of the runs. *)
Definition raw := list (string * list (string * list (Q * list Q * list Q))).
Definition stored_of (l : raw) : list (string * list (string * list result)) :=
  map (fun p => (fst p, map (fun a => (fst a, map (fun t => res (fst (fst t)) (snd (fst t)) (snd t)) (snd a))) (snd p))) l.
Definition nodupb (l : list string) : bool := if list_eq_dec string_dec (nodup string_dec l) l then true else false.
Definition nonempty {A} (l : list A) : bool := match l with [] => false | _ => true end.
Definition okb (l : raw) : bool :=
  (nodupb (map fst l)
   && forallb (fun p => nodupb (map fst (snd p))
        && forallb (fun a => nonempty (snd a)
             && forallb (fun t => nonempty (snd (fst t)) && nonempty (snd t) && forallb (fun x => Qle_bool 0 x) (snd t))
                        (snd a)) (snd p)) l)%bool.
Lemma nodupb_ok l : nodupb l = true -> NoDup l.
Proof. unfold nodupb. destruct (list_eq_dec _ _) as [<-|]; [intros _; apply NoDup_nodup|discriminate]. Qed.
Lemma okb_tidy l : okb l = true -> tidy (stored_of l).
Proof.
  unfold okb, tidy, stored_of. rewrite Bool.andb_true_iff. intros [N H]. apply nodupb_ok in N.
  rewrite forallb_forall in H. split; [rewrite map_map; cbn [fst]; exact N|].
  intros p algos I. apply in_map_iff in I. destruct I as ([p' al] & E & I). cbn [fst snd] in E. injection E as <- <-.
  specialize (H _ I). cbn [snd] in H. apply Bool.andb_true_iff in H. destruct H as [Na H]. apply nodupb_ok in Na.
  rewrite forallb_forall in H. split; [rewrite map_map; cbn [fst]; exact Na|].
  intros a rs J. apply in_map_iff in J. destruct J as ([a' ts] & E & J). cbn [fst snd] in E. injection E as <- <-.
  specialize (H _ J). cbn [snd] in H. apply Bool.andb_true_iff in H. destruct H as [Nt H]. rewrite forallb_forall in H.
  split; [destruct ts; discriminate|]. intros r K. apply in_map_iff in K. destruct K as ([[b c] h] & <- & K).
  specialize (H _ K). cbn [fst snd] in *. rewrite !Bool.andb_true_iff in H. destruct H as [[H1 H2] H3].
  rewrite forallb_forall in H3. split.
  - apply res_fresh; [destruct c|destruct h]; discriminate.
  - intros m larger tol d x R [E|[E|[]]] Hx; injection E as <- <-; [exfalso; eapply cost_not_ranked; eauto|].
    apply Qle_bool_iff. apply H3, Hx.
Qed.

Lemma hv_drawn : drawn_metric "hypervolume".
Proof. exists true, (5 # 1000). constructor. Qed.
Lemma one_accepted b c h m : is_mean c m -> m <= b + 500 -> accepted [res b c h] (res b c h).
Proof.
  intros M L. exists b, [], []. split; [exists [], (res b c h); auto|]. split; [reflexivity|]. split; [|constructor].
  exists c, m. split; [left; reflexivity|auto].
Qed.
Lemma has_hv b c h : has_metric (res b c h) "hypervolume" h.
Proof. right. left. reflexivity. Qed.
Definition fixed_draws (c : string * string * string * Q) : nat -> nat -> nat -> nat := always0.
Lemma fixed_fair c : fair (fixed_draws c).
Proof. apply always0_fair. Qed.

Definition shop : raw :=
  [("ZDT1", [("NSGAII", [(1000, [1010; 1020], [3; 4])]);
             ("SPEA2", [(1000, [1000; 1000], [5; 6])]);
             ("IBEA", [(1000, [1000; 1000], [6; 0])])])]%string.
Example shop_tidy : tidy (stored_of shop).
Proof. apply okb_tidy. reflexivity. Qed.

(** SPEA2 and SMSEMOA (alone or inside a metaalgorithm) have no place in the violins: their results
    are read and silently left out. *)
Theorem C129_left_out_refuted : exists stored figs,
  tidy stored /\ violin 10 fixed_draws (fun _ => true) stored = Some figs /\ figs <> []
  /\ exists p algos a values, In (p, algos) stored /\ offered a /\ violin_of algos "hypervolume" a values
       /\ forall f values', In f figs -> ~ In (a, values') (v_drawn f).
Proof.
  exists (stored_of shop).
  destruct (C129_violins 10 fixed_draws (fun _ => true) (stored_of shop)) as (figs & E & _ & F & _);
    [lia|apply fixed_fair|apply shop_tidy|].
  exists figs. split; [apply shop_tidy|]. split; [exact E|]. split.
  { revert E. vm_compute. intros E. injection E as <-. discriminate. }
  exists "ZDT1"%string. eexists. exists "SPEA2"%string, [5; 6]. split; [left; reflexivity|]. split; [|split].
  - exists "SPEA2"%string. split; [left; reflexivity|left; reflexivity].
  - exists [res 1000 [1000; 1000] [5; 6]], (res 1000 [1000; 1000] [5; 6]), [5; 6].
    split; [right; left; reflexivity|]. split; [apply (one_accepted _ _ _ 1000); reflexivity || (unfold Qle; cbn; lia)|].
    split; [apply has_hv|]. split; [exists 5; split; [left; reflexivity|]; intros X; discriminate|].
    repeat constructor; intros X; discriminate.
  - intros f values' Hf X. destruct (F f Hf) as (al & _ & _ & _ & S & _).
    assert (In "SPEA2"%string curve_names) as Y.
    { apply (selects_in _ _ _ "SPEA2"%string S). apply in_map_iff. exists ("SPEA2"%string, values'). auto. }
    cbn in Y. repeat destruct Y as [Y|Y]; try discriminate. destruct Y.
Qed.
Print Assumptions C129_left_out_refuted.

Example C129_example : violin 10 fixed_draws (fun _ => true) (stored_of shop)
  = Some [{| v_problem := "ZDT1"; v_metric := "hypervolume";
             v_drawn := [("NSGAII", [3; 4]); ("IBEA", [6; machine_eps])] |}]%string.
Proof. vm_compute. reflexivity. Qed.

(** ** C130: curves *)

(** One picture for every problem and metric; in it, in the order of the legend, the algorithms that
    have values, each with its curve over time.  The visible range ends at the end of one of the
    curves. *)
Theorem C130_curves : forall boot_size randint stored,
  (1 <= boot_size)%nat -> (forall c, fair (randint c)) -> tidy stored -> all_known stored ->
  (forall p algos a rs, In (p, algos) stored -> In (a, rs) algos -> chronological rs) ->
  (exists p algos a rs m line, In (p, algos) stored /\ In (a, rs) algos /\ drawn_metric m /\ curve rs m line) ->
  exists figs last, pictures_time boot_size randint stored = Some figs
    /\ NoDup (map (fun f => (c_problem f, c_metric f)) figs)
    /\ (forall f, In f figs -> exists algos, In (c_problem f, algos) stored /\ drawn_metric (c_metric f)
          /\ c_lines f <> []
          /\ c_range f = (0, last)
          /\ selects (fun a => exists rs line, In (a, rs) algos /\ curve rs (c_metric f) line)
                     curve_names (map fst (c_lines f))
          /\ forall a line, In (a, line) (c_lines f) -> exists rs, In (a, rs) algos /\ curve rs (c_metric f) line)
    /\ (forall p algos a rs m line, In (p, algos) stored -> In (a, rs) algos -> drawn_metric m ->
          curve rs m line -> exists f, In f figs /\ c_problem f = p /\ c_metric f = m)
    /\ (exists p algos a rs m line y, In (p, algos) stored /\ In (a, rs) algos /\ drawn_metric m
          /\ curve rs m line /\ In (last, y) line /\ forall x z, In (x, z) line -> x <= last).
Proof. intros bs ri st B F T K C E. exact (pictures_time_ok bs ri B F st T K C E). Qed.
Print Assumptions C130_curves.

Lemma curve_times rs m line : curve rs m line -> forall x y, In (x, y) line -> exists r, In r rs /\ x = r_budget r.
Proof.
  intros (_ & having & S & F) x y H.
  assert (exists r, In r having /\ x = r_budget r) as (r & Hr & E).
  { induction F as [|r q having line [E _] F IH] in H, S |- *; [destruct H|].
    destruct H as [->|H]; [exists r; split; [left; reflexivity|exact E]|].
    clear S. revert H. clear - F. intros H. induction F as [|r' q' hv l [E' _] F IH]; [destruct H|].
    destruct H as [->|H]; [exists r'; split; [right; left; reflexivity|exact E']|].
    destruct (IH H) as (r0 & [<-|I] & X); [exists r|exists r0]; (split; [|exact X]); [left; reflexivity|right; right; exact I]. }
  exists r. split; [|exact E]. apply (selects_in _ _ _ r S). exact Hr.
Qed.
Lemma curve_sorted rs m line : chronological rs -> curve rs m line -> StronglySorted (fun p q => fst p < fst q) line.
Proof.
  intros C (_ & having & S & F). pose proof (selects_sorted _ _ _ _ S C) as H.
  clear S C. induction F as [|r q having line [E _] F IH]; [constructor|].
  inversion H as [|? ? H1 H2]; subst. constructor; [auto|]. apply Forall_forall. intros q' Hq.
  rewrite E. clear - F Hq H2. induction F as [|r' q1 having line [E' _] F IH]; [destruct Hq|].
  inversion H2 as [|? ? X1 X2]; subst. destruct Hq as [<-|Hq]; [rewrite E'; exact X1|auto].
Qed.
Lemma sorted_last (l : list (Q * Q)) z : StronglySorted (fun p q => fst p < fst q) (l ++ [z]) ->
  forall p, In p (l ++ [z]) -> fst p <= fst z.
Proof.
  induction l as [|x l IH]; cbn [app]; intros S p H.
  - destruct H as [<-|[]]. Lqa.lra.
  - inversion S as [|? ? S1 S2]; subst. destruct H as [<-|H]; [|auto].
    rewrite Forall_forall in S2. apply Qlt_le_weak, S2. apply in_or_app. right. left. reflexivity.
Qed.

(** If all curves end at the same time then every point lies in the visible range. *)
Theorem C130_visible_partial : forall boot_size randint stored last,
  (1 <= boot_size)%nat -> (forall c, fair (randint c)) -> tidy stored -> all_known stored ->
  (forall p algos a rs, In (p, algos) stored -> In (a, rs) algos -> chronological rs) ->
  (exists p algos a rs m line, In (p, algos) stored /\ In (a, rs) algos /\ drawn_metric m /\ curve rs m line) ->
  (forall p algos a rs r, In (p, algos) stored -> In (a, rs) algos -> In r rs -> 0 <= r_budget r) ->
  (forall p algos a rs m line, In (p, algos) stored -> In (a, rs) algos -> drawn_metric m -> curve rs m line ->
     exists before y, line = before ++ [(last, y)]) ->
  exists figs, pictures_time boot_size randint stored = Some figs
    /\ forall f a line x y, In f figs -> In (a, line) (c_lines f) -> In (x, y) line ->
         fst (c_range f) <= x <= snd (c_range f).
Proof.
  intros bs ri st last B F T K C Ex P E.
  destruct (C130_curves bs ri st B F T K C Ex) as (figs & t & Es & _ & Fg & _ & (p & al & a & rs & m & line & y & X1 & X2 & X3 & X4 & X5 & X6)).
  exists figs. split; [exact Es|]. intros f a' line' x' y' Hf Hl Hp.
  destruct (Fg f Hf) as (al' & Y1 & Dm & _ & R & _ & L). rewrite R. cbn [fst snd].
  destruct (L a' line' Hl) as (rs' & Y2 & CU).
  assert (Lt : last <= t).
  { destruct (E _ _ _ _ _ _ X1 X2 X3 X4) as (bf & z & El). apply (X6 last z). rewrite El. apply in_or_app. right. left. reflexivity. }
  split.
  - destruct (curve_times _ _ _ CU _ _ Hp) as (r & Hr & ->). apply (P _ _ _ _ r Y1 Y2 Hr).
  - destruct (E _ _ _ _ _ _ Y1 Y2 Dm CU) as (bf & z & El). pose proof (curve_sorted _ _ _ (C _ _ _ _ Y1 Y2) CU) as S.
    rewrite El in S, Hp. pose proof (sorted_last _ _ S _ Hp) as X. cbn [fst] in X. Lqa.lra.
Qed.
Print Assumptions C130_visible_partial.

Definition race : raw :=
  [("ZDT1", [("IBEA", [(1, [100], [3]); (2, [200], [4])]);
             ("NSGAII", [(1, [100], [3]); (2, [300], [5]); (5, [900], [7])])])]%string.
Example race_tidy : tidy (stored_of race).
Proof. apply okb_tidy. reflexivity. Qed.
Example C130_example : pictures_time 10 fixed_draws (stored_of race)
  = Some [{| c_problem := "ZDT1"; c_metric := "hypervolume"; c_range := (0, 2);
             c_lines := [("NSGAII", [(1, 3); (2, 5); (5, 7)]); ("IBEA", [(1, 3); (2, 4)])] |}]%string.
Proof. vm_compute. reflexivity. Qed.
Ltac pick H := cbn in H; repeat destruct H as [H|H]; try (exfalso; exact H); try contradiction.
Example C130_example_hypotheses : all_known (stored_of race)
  /\ (forall p algos a rs, In (p, algos) (stored_of race) -> In (a, rs) algos -> chronological rs)
  /\ exists p algos a rs m line, In (p, algos) (stored_of race) /\ In (a, rs) algos /\ drawn_metric m /\ curve rs m line.
Proof.
  split; [|split].
  - intros p algos a rs r m d H1 H2 _ _ _. pick H1. injection H1 as <- <-. pick H2; injection H2 as <- <-; cbn; auto.
  - intros p algos a rs H1 H2. pick H1. injection H1 as <- <-.
    pick H2; injection H2 as <- <-; repeat constructor; cbn; reflexivity.
  - exists "ZDT1"%string. eexists. exists "IBEA"%string. eexists. exists "hypervolume"%string, [(1, 3); (2, 4)].
    split; [left; reflexivity|]. split; [left; reflexivity|]. split; [apply hv_drawn|]. split; [discriminate|].
    exists [res 1 [100] [3]; res 2 [200] [4]]. split.
    + repeat (apply sel_keep; [eexists; apply has_hv|]). constructor.
    + constructor; [|constructor; [|constructor]]; (split; [reflexivity|]); eexists; (split; [apply has_hv|]); reflexivity.
Qed.

(** The range is that of the curve that happens to come first: here the last point of NSGAII lies
    outside. *)
Theorem C130_visible_refuted : exists stored figs,
  tidy stored /\ all_known stored
  /\ (forall p algos a rs, In (p, algos) stored -> In (a, rs) algos -> chronological rs)
  /\ pictures_time 10 fixed_draws stored = Some figs
  /\ exists f a line x y, In f figs /\ In (a, line) (c_lines f) /\ In (x, y) line /\ snd (c_range f) < x.
Proof.
  exists (stored_of race). eexists. split; [apply race_tidy|]. split; [apply C130_example_hypotheses|].
  split; [apply C130_example_hypotheses|]. split; [apply C130_example|].
  eexists. exists "NSGAII"%string. eexists. exists 5, 7. split; [left; reflexivity|]. split; [left; reflexivity|].
  split; [right; right; left; reflexivity|]. reflexivity.
Qed.
Print Assumptions C130_visible_refuted.

(** One stored value of an algorithm outside the legend ends the command with an exception ... *)
Theorem C130_unknown_algorithm : forall boot_size randint stored p algos a rs r m d,
  In (p, algos) stored -> In (a, rs) algos -> In r rs -> has_metric r m d -> drawn_metric m ->
  ~ In a curve_names -> pictures_time boot_size randint stored = None.
Proof.
  intros bs ri st p algos a rs r m d H1 H2 H3 H4 H5 H6. unfold pictures_time.
  rewrite (unknown_problems bs ri a m d rs r p algos st []); auto.
Qed.
Print Assumptions C130_unknown_algorithm.

(** ... and a run without options stores such values. *)
Theorem C130_default_algorithms_refuted : exists stored, tidy stored
  /\ (forall p algos a rs, In (p, algos) stored -> In (a, rs) algos -> offered a /\ chronological rs)
  /\ forall boot_size randint, pictures_time boot_size randint stored = None.
Proof.
  exists (stored_of shop). split; [apply shop_tidy|]. split.
  - intros p algos a rs H1 H2. pick H1. injection H1 as <- <-. pick H2; injection H2 as <- <-; (split; [|repeat constructor]).
    + exists "NSGAII"%string. split; [cbn; auto|auto].
    + exists "SPEA2"%string. split; [cbn; auto|auto].
    + exists "IBEA"%string. split; [cbn; auto|auto].
  - intros bs ri. eapply (C130_unknown_algorithm bs ri _ "ZDT1"%string _ "SPEA2"%string _ _ "hypervolume"%string).
    + left. reflexivity.
    + right. left. reflexivity.
    + left. reflexivity.
    + apply has_hv.
    + apply hv_drawn.
    + cbn. intros H. repeat destruct H as [H|H]; try discriminate. exact H.
Qed.
Print Assumptions C130_default_algorithms_refuted.

(** The same over the mean costs (pictures_from_stats). *)
Theorem C130_cost_curves : forall boot_size randint stored,
  (1 <= boot_size)%nat -> (forall c, fair (randint c)) -> tidy stored -> all_known stored ->
  exists figs, pictures_from_stats boot_size randint stored = Some figs
    /\ NoDup (map (fun f => (c_problem f, c_metric f)) figs)
    /\ (forall f, In f figs -> exists algos, In (c_problem f, algos) stored /\ drawn_metric (c_metric f)
          /\ selects (fun a => exists rs line, In (a, rs) algos /\ cost_curve rs (c_metric f) line)
                     curve_names (map fst (c_lines f))
          /\ forall a line, In (a, line) (c_lines f) -> exists rs, In (a, rs) algos /\ cost_curve rs (c_metric f) line)
    /\ (forall p algos a rs m line, In (p, algos) stored -> In (a, rs) algos -> drawn_metric m ->
          cost_curve rs m line -> exists f, In f figs /\ c_problem f = p /\ c_metric f = m).
Proof. intros bs ri st B F T K. exact (pictures_from_stats_ok bs ri B F st T K). Qed.
Print Assumptions C130_cost_curves.
Example C130_cost_example : pictures_from_stats 10 fixed_draws (stored_of race)
  = Some [{| c_problem := "ZDT1"; c_metric := "hypervolume"; c_range := (500, 4500);
             c_lines := [("NSGAII", [(100, 3); (300, 5); (900, 7)]); ("IBEA", [(100, 3); (200, 4)])] |}]%string.
Proof. vm_compute. reflexivity. Qed.

(** ** C131: the summary *)

Lemma even_iff stored : even_metrics stored -> even (fun _ => False) stored.
Proof. intros E before p algos after m Eq Np Dm [[]|S]. apply (E before p algos after m Eq Np Dm S). Qed.

(** One picture for every metric with a score; its labels are the problems; every algorithm of the
    legend has a point at a label exactly if it has a score there, the drawn value. *)
Theorem C131_summary : forall boot_size randint selected stored,
  (1 <= boot_size)%nat -> (forall c, fair (randint c)) -> tidy stored -> even_metrics stored ->
  (forall p, In p (map fst stored) -> In p summary_problems) ->
  exists pics, pictures_summary boot_size randint selected stored = Some pics
    /\ NoDup (map s_metric pics)
    /\ (forall m, In m (map s_metric pics) <->
          drawn_metric m /\ exists p algos, In (p, algos) stored /\ has_score m algos)
    /\ (forall pic, In pic pics ->
          selects (fun p => In p (map fst stored)) summary_problems (s_labels pic)
          /\ map (fun l => fst (fst l)) (s_series pic) = curve_names
          /\ forall algo points joined, In (algo, points, joined) (s_series pic) ->
               (joined = true <-> In algo selected)
               /\ StronglySorted (fun a b => (fst a < fst b)%nat) points
               /\ forall x v, In (x, v) points <->
                    exists p algos, nth_error (s_labels pic) x = Some p /\ In (p, algos) stored
                      /\ summary_value (s_metric pic) algos algo v)
    /\ (forall pic, In pic pics ->
          (s_metric pic = "hypervolume"%string -> s_ylim pic = Some (98 / 100, 1001 / 1000)%R)
          /\ (s_metric pic = "pdi"%string -> s_ylim pic = None)
          /\ (s_metric pic <> "hypervolume"%string -> s_metric pic <> "pdi"%string ->
              s_ylim pic = Some (- (1 / 10), 11 / 10)%R)).
Proof.
  intros bs ri sel st B F T E K.
  destruct (summary_ok bs ri B F sel st T (even_iff st E) K) as (pics & E1 & E2 & E3 & E4 & E5).
  exists pics. split; [exact E1|]. split; [exact E2|]. split; [exact E3|]. split; [exact E4|].
  intros pic H. rewrite (E5 pic H). unfold ylim. split; [intros ->; reflexivity|]. split; [intros ->; reflexivity|].
  intros N1 N2. destruct (String.eqb_spec (s_metric pic) "hypervolume"); [congruence|].
  destruct (String.eqb_spec (s_metric pic) "pdi"); [congruence|reflexivity].
Qed.
Print Assumptions C131_summary.

(** The values are determined, lie between 0 and 1 (but for "pdi"), and on each problem a larger score
    means a larger value. *)
Theorem C131_values : forall stored p algos m a b s t v w,
  tidy stored -> In (p, algos) stored -> drawn_metric m ->
  score_in m algos a s -> score_in m algos b t -> summary_value m algos a v -> summary_value m algos b w ->
  ((s < t)%Q <-> (v < w)%R) /\ (a = b -> v = w) /\ (m <> "pdi"%string -> (0 <= v < 1)%R).
Proof.
  intros st p algos m a b s t v w T H Dm A B V W. pose proof (tidy_readable st p algos T H) as R.
  assert (N : forall a s, score_in m algos a s -> 0 <= s).
  { clear - T H Dm. intros a s (rs & r & d & X1 & X2 & X3 & X4). destruct Dm as (l & tol & Dm).
    destruct T as [_ T]. destruct (T p algos H) as [_ Ta]. destruct (Ta a rs X1) as [_ Tr].
    destruct (Tr r (accepted_in _ _ X2)) as [(_ & _ & NE) P].
    pose proof (fun x Hx => P m l tol d x Dm X3 Hx) as Pd.
    unfold is_mean in X4.
    assert (0 <= total d) as Hd.
    { clear - Pd. unfold total. induction d as [|x d IH]; cbn [fold_right]; [Lqa.lra|].
      assert (0 <= x) by (apply Pd; left; reflexivity).
      assert (0 <= fold_right Qplus 0 d) by (apply IH; intros y Hy; apply Pd; right; exact Hy). Lqa.lra. }
    assert (0 < size d) as Hs.
    { unfold size. specialize (NE m d X3). destruct d; [congruence|]. unfold Qlt. cbn [Qnum Qden inject_Z]. cbn [length]. lia. }
    destruct (Qlt_le_dec s 0) as [C|C]; [|exact C]. exfalso.
    assert (s * size d < 0) by (apply (Qmult_lt_compat_r s 0 (size d) Hs) in C; Lqa.lra). Lqa.lra. }
  split; [|split].
  - apply (value_order m algos a b s t v w R A B V W (N a s A) (N b t B)).
  - intros <-. apply (value_unique m algos a v w R V W).
  - intros Np. apply (value_range m algos a v Np V).
Qed.
Print Assumptions C131_values.

(** A later problem without a score in a metric that an earlier one has: ValueError. *)
Theorem C131_uneven : forall boot_size randint selected stored before p algos after m,
  (1 <= boot_size)%nat -> (forall c, fair (randint c)) -> tidy stored ->
  stored = before ++ (p, algos) :: after -> m <> "pdi"%string -> drawn_metric m ->
  (exists p' algos', In (p', algos') before /\ has_score m algos') -> ~ has_score m algos ->
  pictures_summary boot_size randint selected stored = None.
Proof. intros bs ri sel st bf p al af m B F. exact (summary_uneven bs ri B F sel st bf p al af m). Qed.
Print Assumptions C131_uneven.

(** A problem outside the list (ackley, kursawe): ValueError. *)
Theorem C131_unknown_problem : forall boot_size randint selected stored p,
  (1 <= boot_size)%nat -> (forall c, fair (randint c)) -> tidy stored ->
  In p (map fst stored) -> ~ In p summary_problems ->
  (exists p algos m, In (p, algos) stored /\ drawn_metric m /\ has_score m algos) ->
  pictures_summary boot_size randint selected stored = None.
Proof. intros bs ri sel st p B F. exact (summary_unknown bs ri B F sel st p). Qed.
Print Assumptions C131_unknown_problem.

(** Both happen with results as the simulations store them: the second run of ZDT2 exceeded its budget by
    more than 500; kursawe is one of the problems. *)
Definition late : raw :=
  [("ZDT1", [("IBEA", [(1000, [1000], [3])])]); ("ZDT2", [("IBEA", [(1000, [1600], [3])])])]%string.
Definition kursawe : raw := [("kursawe", [("IBEA", [(1000, [1000], [3])])])]%string.

Lemma ibea_score : has_score "hypervolume" [("IBEA"%string, [res 1000 [1000] [3]])].
Proof.
  exists "IBEA"%string. eexists. exists (res 1000 [1000] [3]), [3]. split; [left; reflexivity|]. split; [|apply has_hv].
  apply (one_accepted _ _ _ 1000); [reflexivity|unfold Qle; cbn; lia].
Qed.

Theorem C131_total_refuted :
  (tidy (stored_of late) /\ (forall p, In p (map fst (stored_of late)) -> In p summary_problems)
   /\ forall randint selected, (forall c, fair (randint c)) -> pictures_summary 10 randint selected (stored_of late) = None)
  /\ (tidy (stored_of kursawe) /\ even_metrics (stored_of kursawe)
   /\ forall randint selected, (forall c, fair (randint c)) -> pictures_summary 10 randint selected (stored_of kursawe) = None).
Proof.
  split; (split; [apply okb_tidy; reflexivity|]); (split; [|intros ri sel F]).
  - cbn. intros p [<-|[<-|[]]]; tauto.
  - apply (C131_uneven 10 ri sel (stored_of late) [("ZDT1", [("IBEA", [res 1000 [1000] [3]])])]%string
             "ZDT2"%string [("IBEA", [res 1000 [1600] [3]])]%string [] "hypervolume"%string); auto.
    + lia.
    + apply okb_tidy. reflexivity.
    + discriminate.
    + apply hv_drawn.
    + eexists _, _. split; [left; reflexivity|apply ibea_score].
    + intros (a & rs & r & d & [X|[]] & A & _). injection X as <- <-.
      destruct A as (b & bf & af & (bf' & r' & E1 & <-) & E2 & (c & m & Hc & M & L) & _).
      destruct bf' as [|? [|]]; try discriminate. injection E1 as <-.
      destruct bf as [|? [|]]; try discriminate. injection E2 as <- _.
      destruct Hc as [Hc|[Hc|[]]]; [|discriminate]. injection Hc as <-.
      assert (M' : m * 1 == 1600 + 0) by exact M. assert (L' : m <= 1000 + 500) by exact L. Lqa.lra.
  - intros bf p al af m E _ _ (p' & al' & I & _). destruct bf as [|? [|]]; [destruct I|discriminate|discriminate].
  - apply (C131_unknown_problem 10 ri sel (stored_of kursawe) "kursawe"%string); auto.
    + lia.
    + apply okb_tidy. reflexivity.
    + left. reflexivity.
    + cbn. intros H. repeat destruct H as [H|H]; try discriminate. exact H.
    + eexists _, _, "hypervolume"%string. split; [left; reflexivity|]. split; [apply hv_drawn|apply ibea_score].
Qed.
Print Assumptions C131_total_refuted.

(** The picture of the hypervolumes only shows the top: half of the best hypervolume lies below it. *)
Definition halves : raw :=
  [("ZDT1", [("IBEA", [(1000, [1000], [1])]); ("NSGAII", [(1000, [1000], [1 # 2])])])]%string.
Lemma single_accepted b c h r : accepted [res b c h] r -> r = res b c h.
Proof. intros (b' & bf & af & _ & E & _). destruct bf as [|? [|]]; try discriminate. injection E as <- _. reflexivity. Qed.
Lemma single_hv b c h d : has_metric (res b c h) "hypervolume" d -> d = h.
Proof. intros [E|[E|[]]]; [discriminate|]. injection E as <-. reflexivity. Qed.
Lemma q2r_1 : Q2R 1 = 1%R. Proof. unfold Q2R. cbn. Lra.lra. Qed.
Lemma q2r_half : Q2R (1 # 2) = (1 / 2)%R. Proof. unfold Q2R. cbn. Lra.lra. Qed.

Lemma halves_even : even_metrics (stored_of halves).
Proof. intros bf p al af m E _ _ (p' & al' & I & _). destruct bf as [|? [|]]; [destruct I|discriminate|discriminate]. Qed.
Lemma halves_known p : In p (map fst (stored_of halves)) -> In p summary_problems.
Proof. cbn. tauto. Qed.
Lemma halves_tidy : tidy (stored_of halves).
Proof. apply okb_tidy. reflexivity. Qed.

Theorem C131_hypervolume_refuted : exists stored pics pic lo hi points joined x v,
  tidy stored /\ even_metrics stored /\ (forall p, In p (map fst stored) -> In p summary_problems)
  /\ pictures_summary 10 fixed_draws [] stored = Some pics
  /\ In pic pics /\ s_metric pic = "hypervolume"%string /\ s_ylim pic = Some (lo, hi)
  /\ In ("NSGAII"%string, points, joined) (s_series pic) /\ In (x, v) points /\ (v < lo)%R
  /\ exists p algos, In (p, algos) stored /\ score_in "hypervolume" algos "NSGAII" (1 # 2)
       /\ forall a s, score_in "hypervolume" algos a s -> s <= 1.
Proof.
  destruct (C131_summary 10 fixed_draws [] (stored_of halves)) as (pics & E & _ & M & P & Y);
    [lia|apply fixed_fair|apply halves_tidy|apply halves_even|apply halves_known|].
  set (algos := snd (hd ("", []) (stored_of halves))%string).
  assert (Hin : In ("ZDT1"%string, algos) (stored_of halves)) by (left; reflexivity).
  assert (S1 : score_in "hypervolume" algos "IBEA" 1).
  { exists [res 1000 [1000] [1]], (res 1000 [1000] [1]), [1]. split; [left; reflexivity|].
    split; [apply (one_accepted _ _ _ 1000); [reflexivity|unfold Qle; cbn; lia]|]. split; [apply has_hv|reflexivity]. }
  assert (S2 : score_in "hypervolume" algos "NSGAII" (1 # 2)).
  { exists [res 1000 [1000] [1 # 2]], (res 1000 [1000] [1 # 2]), [1 # 2]. split; [right; left; reflexivity|].
    split; [apply (one_accepted _ _ _ 1000); [reflexivity|unfold Qle; cbn; lia]|]. split; [apply has_hv|reflexivity]. }
  assert (S3 : forall a s, score_in "hypervolume" algos a s -> s == 1 \/ s == 1 # 2).
  { intros a s (rs & r & d & [X|[X|[]]] & A & Hm & Mn); injection X as <- <-; apply single_accepted in A; subst r;
      apply single_hv in Hm; subst d; [left|right].
    - assert (M' : s * 1 == 1 + 0) by exact Mn. Lqa.lra.
    - assert (M' : s * 1 == (1 # 2) + 0) by exact Mn. Lqa.lra. }
  assert (In "hypervolume"%string (map s_metric pics)) as Hm.
  { apply M. split; [apply hv_drawn|]. exists "ZDT1"%string, algos. split; [exact Hin|].
    apply (has_score_iff _ _ (tidy_readable _ _ _ halves_tidy Hin)). eauto. }
  apply in_map_iff in Hm. destruct Hm as (pic & Em & Hp). destruct (P pic Hp) as (L & Nm & Se). destruct (Y pic Hp) as (Yl & _).
  assert (In "NSGAII"%string (map (fun l => fst (fst l)) (s_series pic))) as Hs by (rewrite Nm; left; reflexivity).
  apply in_map_iff in Hs. destruct Hs as ([[a points] joined] & Ea & Hs). cbn [fst] in Ea. subst a.
  destruct (Se _ _ _ Hs) as (_ & _ & Pt).
  assert (T : top_score "hypervolume" algos (magnitude 1)).
  { split; [eauto|]. intros a s H. destruct (S3 a s H) as [Es|Es]; rewrite (magnitude_eq _ _ Es); [apply Rle_refl|].
    apply Rlt_le, magnitude_increasing; unfold Qle, Qlt; cbn; lia. }
  exists (stored_of halves), pics, pic, (98 / 100)%R, (1001 / 1000)%R, points, joined, 0%nat,
    (magnitude (1 # 2) / (magnitude 1 + 1 / 10000))%R.
  split; [apply halves_tidy|]. split; [apply halves_even|]. split; [apply halves_known|]. split; [exact E|].
  split; [exact Hp|]. split; [exact Em|]. split; [apply Yl, Em|]. split; [exact Hs|]. split; [|split].
  - apply Pt. exists "ZDT1"%string, algos. split; [|split; [exact Hin|]].
    + assert (selects (fun p => In p (map fst (stored_of halves))) summary_problems ["ZDT1"%string]) as X.
      { repeat (apply sel_drop; [cbn; intros [Z|[]]; discriminate|]). apply sel_keep; [left; reflexivity|].
        repeat (apply sel_drop; [cbn; intros [Z|[]]; discriminate|]). constructor. }
      rewrite (selects_det _ _ _ _ L X). reflexivity.
    + rewrite Em. exists (1 # 2). split; [exact S2|]. split; [discriminate|]. intros _. exists (magnitude 1). auto.
  - unfold magnitude. rewrite q2r_1, q2r_half, !Rabs_pos_eq by Lra.lra.
    assert (3 * ln (1 + 1 / 2) < 2 * ln (1 + 1))%R as H.
    { replace (3 * ln (1 + 1 / 2))%R with (ln ((1 + 1 / 2) * ((1 + 1 / 2) * (1 + 1 / 2)))).
      2:{ rewrite !ln_mult by Lra.lra. Lra.lra. }
      replace (2 * ln (1 + 1))%R with (ln ((1 + 1) * (1 + 1))).
      2:{ rewrite ln_mult by Lra.lra. Lra.lra. }
      apply ln_increasing; Lra.lra. }
    assert (0 < ln (1 + 1))%R by (rewrite <- ln_1; apply ln_increasing; Lra.lra).
    apply (Rmult_lt_reg_r (ln (1 + 1) + 1 / 10000)); [Lra.lra|].
    unfold Rdiv at 1. rewrite Rmult_assoc, Rinv_l by Lra.lra. Lra.lra.
  - exists "ZDT1"%string, algos. split; [exact Hin|]. split; [exact S2|]. intros a s H.
    destruct (S3 a s H); Lqa.lra.
Qed.
Print Assumptions C131_hypervolume_refuted.

(** ** C132: fronts *)

(** One picture for every problem: its whole front, and for every algorithm with a place in it the
    first run of the accepted result, every point of it in the algorithm's colour. *)
Theorem C132_best_fronts : forall boot_size randint A pareto_front (runs : string -> string -> Q -> list (list A)) stored,
  (1 <= boot_size)%nat -> (forall c, fair (randint c)) -> tidy stored ->
  (forall p algos, In (p, algos) stored -> plain_front p (pareto_front p) \/ cut_front p (pareto_front p)) ->
  (forall p algos, In (p, algos) stored -> has_populations runs p algos) ->
  exists figs, best_fronts boot_size randint A pareto_front runs stored = Some figs
    /\ Forall2 (fun st f => f_problem f = fst st /\ concat (f_front f) = pareto_front (fst st)
                 /\ NoDup (map (fun e => fst (fst e)) (f_drawn f))
                 /\ forall a points marked, In (a, points, marked) (f_drawn f) <->
                      marked = [] /\ front_of runs (fst st) (snd st) a points) stored figs.
Proof. intros bs ri A pf runs st B F T H P. exact (best_fronts_ok bs ri B F A pf runs st T H P). Qed.
Print Assumptions C132_best_fronts.

(** "Best" is the first run: the others make no difference, whatever they found. *)
Theorem C132_other_runs_unused : forall boot_size randint A pareto_front
    (runs runs' : string -> string -> Q -> list (list A)) stored,
  (forall p a b, hd_error (runs p a b) = hd_error (runs' p a b)) ->
  best_fronts boot_size randint A pareto_front runs stored = best_fronts boot_size randint A pareto_front runs' stored.
Proof. intros bs ri A pf runs runs' st H. exact (best_fronts_first bs ri A pf runs runs' H st). Qed.
Print Assumptions C132_other_runs_unused.

(** The front of ZDT3 in pieces. *)
Theorem C132_pieces : forall eps front gs, 0 <= eps -> StronglySorted (fun a b => fst a <= fst b) front ->
  split_front front eps = Some gs -> pieces eps front gs /\ (2 <= length gs)%nat.
Proof.
  intros eps front gs H S E. destruct (split_front_some eps front gs H S E) as (E1 & [G1 G2] & L).
  split; [|exact L]. split; [exact E1|]. split; [|exact G2]. intros g Hg. rewrite Forall_forall in G1. apply (G1 g Hg).
Qed.
Print Assumptions C132_pieces.

(** It raises exactly if there is no gap to cut at. *)
Theorem C132_no_gap : forall eps front,
  split_front front eps = None <->
  forall p a b q, front = p ++ a :: b :: q -> eps < fst b - fst a -> p = [].
Proof. exact split_front_none. Qed.
Print Assumptions C132_no_gap.

Definition broken_line : list (list Q) :=
  [[0; 1]; [1 # 10; 9 # 10]; [2 # 10; 8 # 10]; [5 # 10; 5 # 10]; [51 # 100; 4 # 10]; [9 # 10; 1 # 10]; [91 # 100; 0]].
Example C132_example_cut : cut_front "ZDT3" broken_line.
Proof.
  split; [reflexivity|]. split; [|split].
  - intros v H. cbn in H. repeat destruct H as [<-|H]; try reflexivity. destruct H.
  - repeat constructor; cbn; unfold Qle; cbn; lia.
  - exists [[0; 1]; [1 # 10; 9 # 10]], [2 # 10; 8 # 10], [5 # 10; 5 # 10], [[51 # 100; 4 # 10]; [9 # 10; 1 # 10]; [91 # 100; 0]].
    split; [reflexivity|]. split; [discriminate|reflexivity].
Qed.
(** The gap from 0.2 to 0.5 comes right after the first point of a piece and is not cut. *)
Example C132_example_pieces : plot_problem_front true broken_line
  = Some [[[0; 1]; [1 # 10; 9 # 10]]; [[2 # 10; 8 # 10]; [5 # 10; 5 # 10]; [51 # 100; 4 # 10]];
          [[9 # 10; 1 # 10]; [91 # 100; 0]]].
Proof. vm_compute. reflexivity. Qed.

(** A gap is drawn as a line if it comes right after the first point of a piece. *)
Theorem C132_gap_drawn_refuted : exists front gs g a b,
  StronglySorted (fun a b => fst a <= fst b) front /\ split_front front (5 # 100) = Some gs
  /\ In g gs /\ next g a b /\ 5 # 100 < fst b - fst a.
Proof.
  exists [(0, 5); (1, 4); (101 # 100, 3); (2, 2); (201 # 100, 1)]. eexists. exists [(0, 5); (1, 4); (101 # 100, 3)], (0, 5), (1, 4).
  split; [repeat constructor; cbn; unfold Qle; cbn; lia|]. split; [vm_compute; reflexivity|].
  split; [left; reflexivity|]. split; [exists [], [(101 # 100, 3)]; reflexivity|reflexivity].
Qed.
Print Assumptions C132_gap_drawn_refuted.

(** Results of SMSEMOA have no place in the picture. *)
Definition gallery : raw :=
  [("ZDT1", [("SMSEMOA", [(1000, [1000], [3])]); ("SPEA2", [(1000, [1000], [3])])])]%string.
Definition gallery_runs (p a : string) (b : Q) : list (list vec) :=
  if String.eqb a "SPEA2" then [[[1; 4]; [3; 3]; [2; 3]]%Z; [[0; 0]]%Z] else [[[1; 1]]%Z].
Definition flat_fronts (p : string) : list (list Q) := [[0; 1]; [1; 0]].
Example gallery_tidy : tidy (stored_of gallery).
Proof. apply okb_tidy. reflexivity. Qed.
Example gallery_fronts p algos : In (p, algos) (stored_of gallery) ->
  plain_front p (flat_fronts p) \/ cut_front p (flat_fronts p).
Proof.
  intros H. pick H. injection H as <- <-. left. split; [discriminate|]. split; [discriminate|].
  intros v [<-|[<-|[]]]; cbn; lia.
Qed.
Example gallery_populations p algos : In (p, algos) (stored_of gallery) -> has_populations gallery_runs p algos.
Proof.
  intros _ a rs r _ _ _. unfold gallery_runs. destruct (String.eqb a "SPEA2"); eexists _, _; (split; [reflexivity|discriminate]).
Qed.
Example C132_example : best_fronts 10 fixed_draws vec flat_fronts gallery_runs (stored_of gallery)
  = Some [{| f_problem := "ZDT1"; f_front := [[[0; 1]; [1; 0]]]; f_drawn := [("SPEA2", [[1; 4]; [3; 3]; [2; 3]]%Z, [])] |}]%string.
Proof. vm_compute. reflexivity. Qed.

Theorem C132_left_out_refuted : exists stored (runs : string -> string -> Q -> list (list vec)) figs,
  tidy stored /\ best_fronts 10 fixed_draws vec flat_fronts runs stored = Some figs
  /\ exists p algos rs r more population a, In (p, algos) stored /\ In (a, rs) algos /\ offered a /\ accepted rs r
       /\ runs p a (r_budget r) = population :: more /\ population <> []
       /\ forall f points marked, In f figs -> ~ In (a, points, marked) (f_drawn f).
Proof.
  exists (stored_of gallery), gallery_runs. eexists. split; [apply gallery_tidy|]. split; [apply C132_example|].
  exists "ZDT1"%string. eexists. exists [res 1000 [1000] [3]], (res 1000 [1000] [3]), [], [[1; 1]]%Z, "SMSEMOA"%string.
  split; [left; reflexivity|]. split; [left; reflexivity|].
  split; [exists "SMSEMOA"%string; split; [cbn; tauto|left; reflexivity]|].
  split; [apply (one_accepted _ _ _ 1000); [reflexivity|unfold Qle; cbn; lia]|].
  split; [reflexivity|]. split; [discriminate|]. intros f points marked [<-|[]] [X|[]]. discriminate.
Qed.
Print Assumptions C132_left_out_refuted.

(** ** C133: highlighting *)

(** As C132, with the problems that have something to draw, and with exactly those points highlighted
    that no drawn point of the problem dominates. *)
Theorem C133_highlighted : forall boot_size randint pareto_front (runs : string -> string -> Q -> list (list vec)) stored,
  (1 <= boot_size)%nat -> (forall c, fair (randint c)) -> tidy stored ->
  (forall p algos, In (p, algos) stored -> plain_front p (pareto_front p) \/ cut_front p (pareto_front p)) ->
  (forall p algos, In (p, algos) stored -> has_populations runs p algos) ->
  (forall p algos, In (p, algos) stored ->
     exists d, forall a population v, front_of runs p algos a population -> In v population -> length v = d) ->
  exists figs, color_nondom boot_size randint pareto_front runs stored = Some figs
    /\ exists shown, selects (fun st => exists a population, front_of runs (fst st) (snd st) a population) stored shown
      /\ Forall2 (fun st f => f_problem f = fst st /\ concat (f_front f) = pareto_front (fst st)
           /\ NoDup (map (fun e => fst (fst e)) (f_drawn f))
           /\ (forall a population, front_of runs (fst st) (snd st) a population ->
                 In a (map (fun e => fst (fst e)) (f_drawn f)))
           /\ forall a points marked, In (a, points, marked) (f_drawn f) -> exists population,
                front_of runs (fst st) (snd st) a population
                /\ selects (undominated runs (fst st) (snd st)) population marked
                /\ selects (fun v => ~ undominated runs (fst st) (snd st) v) population points) shown figs.
Proof. intros bs ri pf runs st B F T H P D. exact (color_ok bs ri B F pf runs st T H P D). Qed.
Print Assumptions C133_highlighted.

Example C133_example : color_nondom 10 fixed_draws flat_fronts gallery_runs (stored_of gallery)
  = Some [{| f_problem := "ZDT1"; f_front := [[[0; 1]; [1; 0]]];
             f_drawn := [("SPEA2", [[3; 3]]%Z, [[1; 4]; [2; 3]]%Z)] |}]%string.
Proof. vm_compute. reflexivity. Qed.
Example C133_example_hypotheses : forall p algos, In (p, algos) (stored_of gallery) ->
  exists d, forall a population v, front_of gallery_runs p algos a population -> In v population -> length v = d.
Proof.
  intros p algos _. exists 2%nat. intros a pop v (_ & rs & r & more & _ & _ & E) Hv.
  unfold gallery_runs in E. destruct (String.eqb a "SPEA2"); injection E as <- <-; cbn in Hv;
    repeat destruct Hv as [<-|Hv]; try reflexivity; destruct Hv.
Qed.
