(** Model of the result table and of the printed rankings.
    Source: statistic/ranking.py:49-183 (table_rank, format_result), 221-229 and 291-299 (the printed
    lines of detailed_rank and rank).  No proofs here. *)
From Verif Require Import StatModel.
Local Open Scope nat_scope.

(** collections.Counter: a dictionary from names to counts in insertion order.
    ranking.py:56, 115-119, 159. *)
Definition counter := list (string * nat).
(** ranking.py:115-119: Counter.update with one name. *)
Fixpoint count_one (c : counter) (name : string) : counter :=
  match c with
  | [] => [(name, 1)]
  | (n, k) :: c' => if String.eqb n name then (n, S k) :: c' else (n, k) :: count_one c' name
  end.
(** Counter.update with a list of names. ranking.py:115-119. *)
Definition count_all (c : counter) (names : list string) : counter := fold_left count_one names c.

(** Counter.most_common: sorted by count, reverse=True keeps the order of equal counts;
    heapq.nlargest(n) is the head of that list. ranking.py:158-174. *)
Definition most_common (c : counter) : counter := stable_sort (fun a b => snd b <=? snd a) c.

(** ranking.py:100-123: the counter of one (metric, result set) after the scores of all problems;
    None = an exception in get_weak_winners or max of an empty list. *)
Fixpoint award_problems (metric : string) (larger : bool) (scorings : list (list (string * Q))) (c : counter)
  : option counter :=
  match scorings with
  | [] => Some c
  | s :: rest =>
      match award metric larger s with
      | None => None
      | Some names => award_problems metric larger rest (count_all c names)
      end
  end.

(** ranking.py:180-183 [format_result]: the name, the count and whether it is starred. *)
Definition format_result (algo_score : string * nat) (values : list nat) (count : nat) : string * nat * bool :=
  (algo_score, count <? length (filter (Nat.eqb (snd algo_score)) values)).

(** ranking.py:158-174: one cell of the table. *)
Definition cell (c : counter) : list (string * nat * bool) :=
  let values := map snd c in
  match firstn 2 (most_common c) with
  | [a; b] =>
      [format_result a values 2; format_result b values (if snd a =? snd b then 2 else 1)]
  | [a] => [format_result a values 2]
  | _ => []
  end.
