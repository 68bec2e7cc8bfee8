(** Specification vocabulary for C120-C122: result files, and what the Pareto dominance indicator of a result
    is now. *)
From Verif Require Import Spec DomModel MetModel PoolModel.
From Coq Require Import QArith String List.
Local Open Scope nat_scope.

(** The same file name and the same run number. *)
Definition same_run (a b : key) : bool := String.eqb (fst a) (fst b) && (snd a =? snd b).

Section PoolSpec.
  Variable ID : Type.
  Variable id_eqb : ID -> ID -> bool.
  Notation result := (ID * (key * list vec))%type.

  (** The fitnesses of all results of the same budget and run number. *)
  Definition rivals (rs : list result) (k : key) : list (list vec) :=
    map (fun r => snd (snd r)) (filter (fun r => same_run (fst (snd r)) k) rs).

  (** [q] is the share of the common front of the rivals (the vectors none of theirs dominates) that the
      result's own non-dominated vectors make up. *)
  Definition current_indicator (rs : list result) (r : result) (q : Q) : Prop :=
    let all := concat (rivals rs (fst (snd r))) in
    exists front : list vec,
      NoDup front /\ front <> [] /\
      (forall v, In v front <-> In v all /\ nondominated_in (fun v => v) all v) /\
      forall P : vec -> bool,
        (forall v, In v (snd (snd r)) ->
           (P v = true <-> nondominated_in (fun v => v) (snd (snd r)) v /\ In v front)) ->
        q = Z.of_nat (length (filter P (snd (snd r)))) # Pos.of_nat (length front).

  (** Every result file once, every result with at least one vector, all vectors of the same length. *)
  Definition valid_results (m : nat) (rs : list result) : Prop :=
    NoDup (map fst rs) /\
    forall r, In r rs -> snd (snd r) <> [] /\ forall v, In v (snd (snd r)) -> length v = m.

  (** Results are added or rewritten, none is removed; as long as no file is added the files are listed in
      the same order and have the same run numbers. *)
  Definition grows (old new : list result) : Prop :=
    incl (map fst old) (map fst new) /\
    (incl (map fst new) (map fst old) ->
     map (fun r => (fst r, fst (snd r))) old = map (fun r => (fst r, fst (snd r))) new).

  (** What can happen to a problem's directory: results appear or change, the indicator is evaluated for some
      of the results, and an evaluation may be interrupted while old files are being removed. *)
  Inductive reached (m : nat) : disk ID -> Prop :=
  | reached_start : forall rs, valid_results m rs ->
      reached m {| results := rs; file := Missing; metrics := [] |}
  | reached_change : forall d rs, reached m d -> valid_results m rs -> grows (results d) rs ->
      reached m {| results := rs; file := file d; metrics := metrics d |}
  | reached_evaluate : forall d rs d' qs, reached m d -> incl rs (results d) ->
      evaluate ID id_eqb d rs = Some (d', qs) -> reached m d'
  | reached_interrupted : forall d (kept : ID -> bool), reached m d ->
      reached m {| results := results d; file := Missing; metrics := filter (fun x => kept (fst x)) (metrics d) |}.
End PoolSpec.
