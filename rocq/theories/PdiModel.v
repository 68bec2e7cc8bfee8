(** Preparing the pools of the Pareto dominance indicator:
    simulation/metrics_processor.py:188-216 [preload_results_for_problem]. *)
Require Import String List Arith NArith Bool.
From Verif Require Import PyStr IdModel FsModel.
Import ListNotations.
Open Scope string_scope.

Section Pdi.
  Variable R : Type.
  Variable unpickle : string -> option R.

  (** The order in which [iterdir] lists a directory; the code does not sort here. *)
  Variable order : path -> list string.

  (** metrics_processor.py:192-196: iterdir of what is not a directory raises. *)
  Definition is_dir (s : fs) (p : path) : bool :=
    match lookup s p with Some Dir => true | _ => false end.

  (** Lines 197-216: the files of run number [i] in [dir]. *)
  Fixpoint preload_files (s : fs) (dir : path) (i : nat) (names : list string)
    : fres (list (string * nat * R)) :=
    match names with
    | [] => Good []
    | n :: rest =>
        match numbered n with
        | None => preload_files s dir i rest
        | Some (st, _) =>
            match load_path R unpickle s (dir ++ [n])%list with
            | Good r =>
                match preload_files s dir i rest with
                | Good l => Good ((st, i, r) :: l)
                | Bad e => Bad e
                end
            | Bad IsADirectory => preload_files s dir i rest
            | Bad e => Bad e
            end
        end
    end.

  (** Lines 195-197: the runs of one algorithm are numbered in listing order. *)
  Fixpoint preload_runs (s : fs) (algo : path) (i : nat) (runs : list string)
    : fres (list (string * nat * R)) :=
    match runs with
    | [] => Good []
    | run :: rest =>
        match preload_files s (algo ++ [run])%list i (order (algo ++ [run])%list) with
        | Bad e => Bad e
        | Good l =>
            match preload_runs s algo (S i) rest with
            | Bad e => Bad e
            | Good l' => Good (l ++ l')%list
            end
        end
    end.

  (** Lines 191-196 *)
  Fixpoint preload_algos (s : fs) (problem : path) (algos : list string)
    : fres (list (string * nat * R)) :=
    match algos with
    | [] => Good []
    | a :: rest =>
        let algo := (problem ++ [a])%list in
        if is_dir s algo then
          match preload_runs s algo 0
                  (filter (fun run => is_dir s (algo ++ [run])%list) (order algo)) with
          | Bad e => Bad e
          | Good l =>
              match preload_algos s problem rest with
              | Bad e => Bad e
              | Good l' => Good (l ++ l')%list
              end
          end
        else preload_algos s problem rest
    end.

  (** The pool [cache[(problem, name, run_no)]] before the dominated points are filtered out.
      metrics_processor.py:188-216. *)
  Definition pool (s : fs) (problem : path) (name : string) (run : nat) : fres (list R) :=
    match preload_algos s problem (order problem) with
    | Bad e => Bad e
    | Good l =>
        Good (map (fun x => snd x)
          (filter (fun x => String.eqb (fst (fst x)) name && (snd (fst x) =? run)%nat) l))
    end.
End Pdi.
