(** Several processes that store results into one results directory at the same time: simulation/serializer.py:32-55
    at the level of system calls.  A process is a program that makes one call after the other; a schedule says whose
    call comes next.  A process that is killed is one that the schedule does not name any more. *)
Require Import String Ascii List Arith Bool.
From Verif Require Import PyStr IdModel FsModel FsSpec.
Import ListNotations.
Open Scope string_scope.

(** serializer.py:48, 33-34: FileExistsError, FileNotFoundError, NotADirectoryError, IsADirectoryError. *)
Inductive oserror : Type := Exists | NoEntry | NotDir | IsDirectory.

(** serializer.py:48, 33, 34: the system calls: mkdir, stat (Path.is_dir), open for writing, writing one byte at the
    position of the descriptor. *)
Inductive call : Type :=
| CMkdir (p : path) | CIsDir (p : path) | COpen (p : path) | CWrite (p : path) (position : nat) (c : ascii).

(** serializer.py:46-52: what a call returns. *)
Inductive reply : Type := Done | Failed (e : oserror) | Answer (b : bool).

(** serializer.py:34: a byte written at a position; a gap is filled with zeros. *)
Fixpoint write_at (position : nat) (c : ascii) (b : string) : string :=
  match position, b with
  | O, EmptyString => String c ""
  | O, String _ b' => String c b'
  | S n, EmptyString => String "000"%char (write_at n c "")
  | S n, String x b' => String x (write_at n c b')
  end.

(** serializer.py:48, 33: whether the directory a name is to be made in is there; the working directory always is. *)
Definition parent_is_dir (s : fs) (p : path) : bool :=
  match removelast p with
  | [] => true
  | par => match lookup s par with Some Dir => true | _ => false end
  end.

(** serializer.py:46-52: the effect of a call and what it returns.  Nothing is ever removed, so the descriptor's file
    is the one at the path. *)
Definition do_call (s : fs) (c : call) : fs * reply :=
  match c with
  | CMkdir p =>
      match p with
      | [] => (s, Failed Exists)
      | _ =>
          if existsb (is_file s) (prefixes (removelast p)) then (s, Failed NotDir)
          else match lookup s p with
               | Some _ => (s, Failed Exists)
               | None => if parent_is_dir s p then (set s p Dir, Done) else (s, Failed NoEntry)
               end
      end
  | CIsDir p => (s, Answer (match p with [] => true | _ => match lookup s p with Some Dir => true | _ => false end end))
  | COpen p =>
      if existsb (is_file s) (prefixes (removelast p)) then (s, Failed NotDir)
      else match lookup s p with
           | Some Dir => (s, Failed IsDirectory)
           | Some (File _) => (set s p (File ""), Done)
           | None => if parent_is_dir s p then (set s p (File ""), Done) else (s, Failed NoEntry)
           end
  | CWrite p n c =>
      match lookup s p with
      | Some (File b) => (set s p (File (write_at n c b)), Done)
      | _ => (s, Done)
      end
  end.

(** serializer.py:46-52: a program: it has ended (with an exception or without), or makes a call and goes on with
    the reply. *)
Inductive prog : Type := Return (e : option oserror) | Call (c : call) (k : reply -> prog).

(** serializer.py:48 [Path.mkdir] of pathlib: if the parent is missing it is made first (with its own parents,
    exist_ok=True) and the call repeated; with exist_ok another error counts only if there is no directory.
    [fuel]: the length of the path is enough. *)
Fixpoint mkdir (fuel : nat) (p : path) (parents exist_ok : bool) (k : option oserror -> prog) : prog :=
  Call (CMkdir p) (fun r =>
    match r with
    | Failed NoEntry =>
        match parents, fuel with
        | true, S fuel' =>
            mkdir fuel' (removelast p) true true (fun e =>
              match e with
              | None => mkdir fuel' p false exist_ok k
              | Some e => k (Some e)
              end)
        | _, _ => k (Some NoEntry)
        end
    | Failed e =>
        if exist_ok
        then Call (CIsDir p) (fun r => match r with Answer true => k None | _ => k (Some e) end)
        else k (Some e)
    | _ => k None
    end).

(** serializer.py:34 [pickle.dump]: the bytes one after the other. *)
Fixpoint write_bytes (p : path) (position : nat) (bytes : string) (k : prog) : prog :=
  match bytes with
  | EmptyString => k
  | String c rest => Call (CWrite p position c) (fun _ => write_bytes p (S position) rest k)
  end.

(** serializer.py:32-34 [save_file] *)
Definition save_file (p : path) (bytes : string) (k : option oserror -> prog) : prog :=
  Call (COpen p) (fun r =>
    match r with
    | Failed e => k (Some e)
    | _ => write_bytes p 0 bytes (k None)
    end).

(** serializer.py:46-52 [Serializer.store]; FileExistsError is suppressed. *)
Definition store_prog (dir : path) (name bytes : string) (k : option oserror -> prog) : prog :=
  mkdir (List.length dir) dir true false (fun e =>
    match e with
    | None | Some Exists => save_file (result_path dir name) bytes k
    | Some e => k (Some e)
    end).

Section System.
  Variable R : Type.
  Variable pickle : R -> string.
  Variable root : string.

  (** worker.py:109-140, 146-175: a process stores one result after the other; an exception ends it. *)
  Fixpoint store_all (jobs : list (location * R)) : prog :=
    match jobs with
    | [] => Return None
    | (l, r) :: rest =>
        store_prog (loc_dir root l) (l_name l) (pickle r) (fun e =>
          match e with None => store_all rest | Some e => Return (Some e) end)
    end.

  (** serializer.py:46-52: the process with number [i] makes its next call; nothing happens if it has ended. *)
  Definition turn (st : fs * list prog) (i : nat) : fs * list prog :=
    match nth_error (snd st) i with
    | Some (Call c k) =>
        let (s', r) := do_call (fst st) c in
        (s', (firstn i (snd st) ++ k r :: skipn (S i) (snd st))%list)
    | _ => st
    end.

  (** serializer.py:46-52: one process per list of results, under a schedule. *)
  Definition run_processes (s : fs) (jobs : list (list (location * R))) (schedule : list nat) : fs * list prog :=
    fold_left turn schedule (s, map store_all jobs).
End System.
