(** Specification vocabulary for NSLS. *)
From Verif Require Import Spec MetSpec.

(** All coordinates of [v], except possibly number [k], lie in the box. *)
Definition in_box_except (k : nat) (b : box) (v : vec) : Prop :=
  length v = length b /\
  forall j lb ub x, j <> k -> nth_error b j = Some (lb, ub) -> nth_error v j = Some x -> (lb <= x <= ub)%Z.

(** [y] is [x] with coordinate [k] moved by [d], or left where it is if that would leave the box. *)
Definition moved (b : box) (k : nat) (d : Z) (x y : vec) : Prop :=
  length y = length x /\
  (forall j, j <> k -> nth_error y j = nth_error x j) /\
  (forall lb ub a, nth_error b k = Some (lb, ub) -> nth_error x k = Some a ->
     ((lb <= a + d <= ub)%Z -> nth_error y k = Some (a + d)%Z) /\
     (~ (lb <= a + d <= ub)%Z -> nth_error y k = Some a)).

(** random.sample: k different members. *)
Definition is_sample (sample : nat -> list nat -> list nat) : Prop :=
  forall k l, NoDup l -> k <= length l ->
    length (sample k l) = k /\ NoDup (sample k l) /\ incl (sample k l) l.

(** Going through [l] in order, [x] is smaller than everything before it, or greater than
    everything before it. *)
Definition record_in (val : nat -> Z) (l : list nat) (x : nat) : Prop :=
  exists l1 l2, l = l1 ++ x :: l2 /\
    ((forall y, In y l1 -> (val x < val y)%Z) \/ (forall y, In y l1 -> (val y < val x)%Z)).

(** [chosen] was picked from [pool] one by one, each time a member whose nearest point among those
    picked before ([base] and the earlier choices) is as far away as possible. *)
Definition farthest_first (vec_at : nat -> vec) (pool base chosen : list nat) : Prop :=
  forall before c after y dy dc, chosen = before ++ c :: after ->
    In y pool -> ~ In y (base ++ before) ->
    nearest (map vec_at (base ++ before)) (vec_at y) dy ->
    nearest (map vec_at (base ++ before)) (vec_at c) dc -> (dy <= dc)%Z.
