(** Property theorems C118: the printed table and rankings. *)
From Verif Require Import StatModel StatSpec CellModel CellSpec CellProofs.
Local Open Scope nat_scope.

(** C118 - [scorings]: for each problem, the scores of the algorithms in one metric.  The counter adds up
    what the algorithms earn on every problem; the printed line ranks them and the cell of the table shows
    the best two with their stars. *)
Theorem C118_table_and_ranking :
  forall (metric : string) (larger : bool) (tol : Q) (scorings : list (list (string * Q))),
    ranked metric larger tol ->
    Forall (fun s => s <> [] /\ NoDup (map fst s) /\ forall a x, In (a, x) s -> (0 <= x)%Q) scorings ->
    exists c, award_problems metric larger scorings [] = Some c /\
      exists pts, (forall a, total_points larger tol a scorings (pts a)) /\
        ranking_line pts (most_common c) /\ table_cell pts (cell c).
Proof. exact table_ok. Qed.
Print Assumptions C118_table_and_ranking.

Open Scope string_scope.
(** NSGAII leads, SPEA2 and IBEA share the second place: one of them is shown, with a star. *)
Definition ex_scorings : list (list (string * Q)) :=
  [[("NSGAII", 9 # 1); ("SPEA2", 5 # 1); ("IBEA", 6 # 1)]; [("SPEA2", 8 # 1); ("IBEA", 8 # 1); ("NSGAII", 2 # 1)]].
Example C118_example :
  exists c, award_problems "hypervolume" true ex_scorings [] = Some c /\
    cell c = [("NSGAII", 2, false); ("SPEA2", 1, true)] /\
    most_common c = [("NSGAII", 2); ("SPEA2", 1); ("IBEA", 1)] /\
    Forall (fun s => s <> [] /\ NoDup (map fst s) /\ forall a x, In (a, x) s -> (0 <= x)%Q) ex_scorings.
Proof.
  eexists. split; [vm_compute; reflexivity|]. split; [reflexivity|]. split; [reflexivity|].
  repeat constructor; try discriminate; cbn; try (intuition discriminate);
    intros a x H; repeat destruct H as [H|H]; try contradiction; injection H as _ <-; unfold Qle; cbn; lia.
Qed.
