(** Which parent a gene of the child takes after. *)
From Coq Require Import Reals List.
Import ListNotations.
Local Open Scope R_scope.

(** [g] is strictly nearer to [p] than to [q]. *)
Definition nearer (p q g : R) : Prop := Rabs (g - p) < Rabs (g - q).

(** The draws [us] in groups of three for each gene; draw [k] of gene [i]. *)
Definition in_threes (us : list R) (k i : nat) : R := nth (3 * i + k) us 0.

(** Gene by gene, the child takes after the chosen parent where [pattern] says true and after the other one where it
    says false. *)
Definition takes_after (pattern : list bool) (chosen other child : list R) : Prop :=
  Forall2 (fun (tp : bool * (R * R)) g =>
             if fst tp then nearer (fst (snd tp)) (snd (snd tp)) g else nearer (snd (snd tp)) (fst (snd tp)) g)
          (combine pattern (combine chosen other)) child.

(** Chance of a pattern: 3/4 for the chosen parent, 1/4 for the other one, gene by gene. *)
Definition chance_of_pattern (pattern : list bool) : R :=
  fold_right (fun t p => (if t : bool then 3 / 4 else 1 / 4) * p) 1 pattern.
