(** statistic/summary.py and simulation/serialization.py:92-116: going through all stored results, and the summary
    printed from them.  The file system is that of FsModel. *)
Require Import String List NArith.
From Verif Require Import PyStr IdModel FsModel.
Import ListNotations.
Open Scope string_scope.

(** serialization.py:92-116: the exceptions: no module for a problem (115), or one of the file system's. *)
Inductive gone : Type := NoModule (name : string) | FsError (e : err).

(** summary.py:9-13: going through a generator; what was seen before an exception has been printed. *)
Fixpoint in_turn {A B : Type} (f : A -> list B * option gone) (l : list A) : list B * option gone :=
  match l with
  | [] => ([], None)
  | x :: rest =>
      match f x with
      | (out, Some e) => (out, Some e)
      | (out, None) => let (out', e') := in_turn f rest in ((out ++ out')%list, e')
      end
  end.

Section Results.
  Variable R : Type.
  Variable unpickle : string -> option R.
  (** Whether problems.<name>.problem can be imported. *)
  Variable importable : string -> bool.
  (** The order in which the system lists a directory. *)
  Variable listing : fs -> path -> list string.

  (** serialization.py:93-105 [f_algo]: one entry per budget (or time) of an algorithm on a problem: the problem, the
      algorithm, the number and the results of its runs.  The metrics are computed on demand (C69) and left out. *)
  Definition f_algo (s : fs) (root problem algo : string)
    : list (string * string * N * list (item R)) * option gone :=
    match extract R unpickle s root problem algo with
    | Good groups => (map (fun g => (problem, algo, fst g, snd g)) groups, None)
    | Bad e => ([], Some (FsError e))
    end.

  (** serialization.py:107-110 [f_problem]: the algorithms of a problem; files are passed over. *)
  Definition f_problem (s : fs) (root problem : string)
    : list (string * string * N * list (item R)) * option gone :=
    match lookup s [root; problem] with
    | Some Dir =>
        in_turn (fun algo => match lookup s [root; problem; algo] with
                             | Some Dir => f_algo s root problem algo
                             | _ => ([], None)
                             end)
          (listing s [root; problem])
    | _ => ([], Some (FsError NotADirectory))
    end.

  (** serialization.py:112-116: the problems, each imported first; a missing results directory is no error. *)
  Definition each_result (s : fs) (root : string) : list (string * string * N * list (item R)) * option gone :=
    match lookup s [root] with
    | None => ([], None)
    | Some (File _) => ([], Some (FsError NotADirectory))
    | Some Dir =>
        in_turn (fun problem => if importable problem then f_problem s root problem else ([], Some (NoModule problem)))
          (listing s [root])
    end.

  (** summary.py:8-21 [analyse_results]: one line per entry, with the number of results (the padding of the columns is
      left out). *)
  Definition analyse_results (s : fs) (root : string) : list (string * string * N * nat) * option gone :=
    let (entries, e) := each_result s root in
    (map (fun x => match x with (problem, algo, number, results) => (problem, algo, number, length results) end) entries, e).
End Results.
