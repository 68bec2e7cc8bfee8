(** dir_walker.py: the tool that walks over a results directory and converts or deletes files.

    The file system is that of FsModel (paths as lists of names; a write reaches the disk byte by
    byte, so that a crash of the process can leave any prefix), with removal added.  A power failure that loses
    written but unsynchronised data is not modelled.  The lines printed are left out. *)
Require Import String Ascii List Arith NArith ZArith Bool.
From Verif Require Import PyStr FsModel.
Import ListNotations.
Open Scope string_scope.

(** dir_walker.py:18-41: a step of a write, or os.remove. *)
Inductive wop : Type := Write (o : op) | Remove (p : path).

(** dir_walker.py:30 and 41 [os.remove]. *)
Definition remove (s : fs) (p : path) : fs := filter (fun e => negb (path_eqb (fst e) p)) s.

(** dir_walker.py:18-41: the effect of one step. *)
Definition apply_w (s : fs) (o : wop) : fs :=
  match o with Write o => apply s o | Remove p => remove s p end.

(** dir_walker.py:18-41: the effect of several. *)
Definition apply_ws (s : fs) (os : list wop) : fs := fold_left apply_w os s.

(** dir_walker.py:18-41: the exceptions that end a walk (NoFile: the file to open is not there, IsDir: opening a
    directory for writing, BadJson: json.load, NoNumber: ValueError of int).  OutOfFuel never happens
    (DirProofs.walk_flat). *)
Inductive werr : Type := NoFile | IsDir | BadJson | NoNumber | OutOfFuel.

(** dir_walker.py:14-15: doing something for each element in turn; an exception ends the loop. *)
Fixpoint each {A : Type} (f : fs -> A -> list wop * option werr) (s : fs) (l : list A)
  : list wop * option werr :=
  match l with
  | [] => ([], None)
  | x :: rest =>
      match f s x with
      | (os, Some e) => (os, Some e)
      | (os, None) => let (os', e') := each f (apply_ws s os) rest in ((os ++ os')%list, e')
      end
  end.

(** dir_walker.py:13: what os.walk takes for a subdirectory. *)
Definition is_dir (s : fs) (p : path) : bool :=
  match lookup s p with Some Dir => true | _ => false end.

Section Walk.
  (** The order in which the system lists a directory. *)
  Variable listing : fs -> path -> list string.
  (** dir_walker.py:11: [fun]. *)
  Variable visit : fs -> path -> string -> list wop * option werr.

  (** dir_walker.py:11-15 [walk], with os.walk top-down: the names of a directory are read and sorted into files and
      directories before its files are visited; the subdirectories follow.  A root that is not a directory is walked
      over in silence (os.walk ignores the error). *)
  Fixpoint walk (fuel : nat) (s : fs) (dir : path) : list wop * option werr :=
    match fuel with
    | O => ([], Some OutOfFuel)
    | S fuel' =>
        match lookup s dir with
        | Some Dir =>
            let names := listing s dir in
            let files := filter (fun n => is_file s (dir ++ [n])%list) names in
            let subdirs := filter (fun n => is_dir s (dir ++ [n])%list) names in
            match each (fun s' n => visit s' dir n) s files with
            | (os, Some e) => (os, Some e)
            | (os, None) =>
                let (os', e') := each (fun s' n => walk fuel' s' (dir ++ [n])%list) (apply_ws s os) subdirs in
                ((os ++ os')%list, e')
            end
        | _ => ([], None)
        end
    end.
End Walk.

(** dir_walker.py:11-15: enough fuel: one more than the longest path. *)
Definition depth (s : fs) : nat := S (fold_right (fun e m => Nat.max (length (fst e)) m) 0 s).

(** dir_walker.py:19 [fname.endswith(".json")] *)
Definition ends_with (suffix name : string) : bool :=
  let n := (String.length name - String.length suffix)%nat in
  (String.length suffix <=? String.length name)%nat && String.eqb (substring n (String.length suffix) name) suffix.

(** dir_walker.py:24 [fname[:-4] + "pickle"] *)
Definition pickle_name (fname : string) : string :=
  (substring 0 (String.length fname - 4) fname ++ "pickle")%string.

Section Json.
  (** The values in the files; json.load (with the decoding of the text) and pickle.dump. *)
  Variable V : Type.
  Variable json_load : string -> option V.
  Variable pickle : V -> string.

  (** dir_walker.py:18-30 [json2pickle]: the steps and the exception.  The file is there when its directory is listed;
      [open] raises if it is not. *)
  Definition json2pickle (s : fs) (dir : path) (fname : string) : list wop * option werr :=
    if ends_with ".json" fname then
      match lookup s (dir ++ [fname])%list with
      | Some (File b) =>
          match json_load b with
          | None => ([], Some BadJson)
          | Some v =>
              match lookup s (dir ++ [pickle_name fname])%list with
              | Some Dir => ([], Some IsDir)
              | _ => ((map Write (write_ops (dir ++ [pickle_name fname])%list (pickle v)) ++
                       [Remove (dir ++ [fname])])%list, None)
              end
          end
      | _ => ([], Some NoFile)
      end
    else ([], None).

  (** dir_walker.py:44-45: the whole tool, [walk(results_dir, json2pickle)]. *)
  Definition convert (listing : fs -> path -> list string) (s : fs) (root : path) : list wop * option werr :=
    walk listing json2pickle (depth s) s root.
End Json.

(** dir_walker.py:35 [int]: characters that [str.isspace] accepts, of ASCII. *)
Definition is_space (c : ascii) : bool :=
  let n := N_of_ascii c in ((9 <=? n) && (n <=? 13) || (28 <=? n) && (n <=? 32))%N.

(** dir_walker.py:35 [int]: leading white space is skipped. *)
Fixpoint lstrip (s : string) : string :=
  match s with
  | EmptyString => EmptyString
  | String c s' => if is_space c then lstrip s' else s
  end.

(** dir_walker.py:35 [int]: so is trailing white space. *)
Fixpoint rstrip (s : string) : string :=
  match s with
  | EmptyString => EmptyString
  | String c s' =>
      match rstrip s' with
      | EmptyString => if is_space c then EmptyString else String c EmptyString
      | t => String c t
      end
  end.

(** dir_walker.py:35 [int]: digits, with single underscores between digits; [after] says whether a digit precedes. *)
Fixpoint int_digits (acc : Z) (after : bool) (s : string) : option Z :=
  match s with
  | EmptyString => if after then Some acc else None
  | String c s' =>
      if is_digit c then int_digits (10 * acc + Z.of_N (digit_value c))%Z true s'
      else if Ascii.eqb c "_"%char && after then
        match s' with
        | String c' _ => if is_digit c' then int_digits acc false s' else None
        | EmptyString => None
        end
      else None
  end.

(** dir_walker.py:35 [int] of a string of ASCII characters; [None] is ValueError.  (Digits of other scripts are not
    modelled.) *)
Definition py_int (s : string) : option Z :=
  match rstrip (lstrip s) with
  | String "+" t => int_digits 0 false t
  | String "-" t => option_map Z.opp (int_digits 0 false t)
  | t => int_digits 0 false t
  end.

(** dir_walker.py:34-35 [int(fname.split(".")[0])] *)
Definition budget_of (fname : string) : option Z := py_int (hd "" (split "." fname)).

(** dir_walker.py:33-41 [clear_budget]. *)
Definition clear_budget (s : fs) (dir : path) (fname : string) : list wop * option werr :=
  match budget_of fname with
  | None => ([], Some NoNumber)
  | Some budget =>
      if (4500 <? budget)%Z then
        match lookup s (dir ++ [fname])%list with
        | Some (File _) => ([Remove (dir ++ [fname])%list], None)
        | _ => ([], Some NoFile)
        end
      else ([], None)
  end.

(** dir_walker.py:11-15 with 33-41: [walk(results_dir, clear_budget)]. *)
Definition clear (listing : fs -> path -> list string) (s : fs) (root : path) : list wop * option werr :=
  walk listing clear_budget (depth s) s root.
