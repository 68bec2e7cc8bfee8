(** Specification vocabulary for the printed table. *)
From Verif Require Import StatModel StatSpec.
Local Open Scope nat_scope.

(** [f] lists the points every algorithm has over all problems: the sum of what it earns on each. *)
Inductive total_points (larger : bool) (tol : Q) (algo : string) : list (list (string * Q)) -> nat -> Prop :=
| tp_nil : total_points larger tol algo [] 0
| tp_cons : forall s rest k n, points larger tol s algo k -> total_points larger tol algo rest n ->
    total_points larger tol algo (s :: rest) (k + n).

(** A line of names with points lists everybody who has any, most points first. *)
Definition ranking_line (pts : string -> nat) (line : list (string * nat)) : Prop :=
  NoDup (map fst line) /\
  (forall a k, In (a, k) line <-> pts a = k /\ 1 <= k) /\
  StronglySorted (fun x y => snd y <= snd x) line.

(** A cell of the table: the two algorithms with most points (fewer if there are fewer), first place
    first; a star says that an algorithm that is not shown has as many points as this one. *)
Definition table_cell (pts : string -> nat) (entries : list (string * nat * bool)) : Prop :=
  let shown := map (fun e => fst (fst e)) entries in
  NoDup shown /\
  (forall a k b, In (a, k, b) entries -> pts a = k /\ 1 <= k) /\
  StronglySorted (fun x y => snd (fst y) <= snd (fst x)) entries /\
  (forall a e, In e entries -> ~ In a shown -> pts a <= snd (fst e)) /\
  length entries <= 2 /\
  (length entries < 2 -> forall a, ~ In a shown -> pts a = 0) /\
  (forall a k b, In (a, k, b) entries -> (b = true <-> exists other, ~ In other shown /\ pts other = k)).
