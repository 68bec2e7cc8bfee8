(** Model of the fitness archive.  Source: algorithms/HGS/tools.py and algorithms/HGS/classic/ClassicHGS.py. *)
From Verif Require Import Spec DomModel.

(** A key: the code hands in lists and tuples. algorithms/HGS/tools.py:79-81. *)
Inductive key_arg := AsList (v : vec) | AsTuple (v : vec).
(** tools.py:79-81 = ClassicHGS.py:404-406: tuple(key) *)
Definition keytransform (k : key_arg) : vec := match k with AsList v => v | AsTuple v => v end.

Section Archive.
  Variable value : Type.
  (** A dict with tuple keys, in insertion order. tools.py:52-58. *)
  Definition store := list (vec * value).

  (** tools.py:60-61: reading an entry of self.store. *)
  Fixpoint dict_get (k : vec) (d : store) : option value :=
    match d with [] => None | (k', x) :: d' => if vec_eqb k k' then Some x else dict_get k d' end.
  (** dict.__setitem__: an existing key keeps its place. tools.py:63-64. *)
  Fixpoint dict_set (k : vec) (x : value) (d : store) : store :=
    match d with
    | [] => [(k, x)]
    | (k', y) :: d' => if vec_eqb k k' then (k', x) :: d' else (k', y) :: dict_set k x d'
    end.
  (** dict.__delitem__; None = KeyError. tools.py:66-67. *)
  Fixpoint dict_del (k : vec) (d : store) : option store :=
    match d with
    | [] => None
    | (k', y) :: d' => if vec_eqb k k' then Some d' else match dict_del k d' with None => None | Some r => Some ((k', y) :: r) end
    end.

  (** tools.py:60-61; None = KeyError *)
  Definition arc_get (k : key_arg) (d : store) : option value := dict_get (keytransform k) d.
  (** Mapping.__contains__: whether __getitem__ raises KeyError.
      tools.py:52-61; collections.abc.MutableMapping supplies it. Used by e.g. NSGAII.py:104-106. *)
  Definition arc_mem (k : key_arg) (d : store) : bool := match arc_get k d with Some _ => true | None => false end.
  (** tools.py:63-64 *)
  Definition arc_set (k : key_arg) (x : value) (d : store) : store := dict_set (keytransform k) x d.
  (** tools.py:66-67 *)
  Definition arc_del (k : key_arg) (d : store) : option store := dict_del (keytransform k) d.
  (** tools.py:69-73 *)
  Definition arc_iter (d : store) : list vec := map fst d.
  (** tools.py:72-73. *)
  Definition arc_len (d : store) : nat := length d.

  (** A history of calls; a deletion that raises KeyError leaves the archive as it was.
      tools.py:60-73, in any order. *)
  Inductive call := Store (k : key_arg) (x : value) | Delete (k : key_arg).
  (** tools.py:60-73: what one call does to the archive. *)
  Definition do_call (d : store) (c : call) : store :=
    match c with
    | Store k x => arc_set k x d
    | Delete k => match arc_del k d with Some d' => d' | None => d end
    end.
  (** tools.py:56-73: the archive after a history of calls on a new one. *)
  Definition after (calls : list call) : store := fold_left do_call calls [].
End Archive.
Arguments Store {value}. Arguments Delete {value}. Arguments after {value}.
