(** Model of the movement of one coordinate of an OMOPSO particle, over the real numbers.
    Source: algorithms/OMOPSO/OMOPSO.py.  Coordinates do not interact in this code.  No proofs here. *)
From Coq Require Import Reals List.
Import ListNotations.
Local Open Scope R_scope.

(** The draws for a particle in one step: r1, r2 and the draws in [0, 1) behind the three calls of random.uniform
    (uniform(a, b) = a + (b - a) * u).  OMOPSO.py:146-150. *)
Record draws := { d_r1 : R; d_r2 : R; d_c1 : R; d_c2 : R; d_w : R }.

(** OMOPSO.py:148-150: random.uniform(a, b). *)
Definition uniform (a b u : R) : R := a + (b - a) * u.

(** OMOPSO.py:146-157: the new speed; [best] and [guide] are the coordinates of the personal best and of the leader. *)
Definition new_speed (d : draws) (x s best guide : R) : R :=
  uniform (1/10) (5/10) (d_w d) * s
  + uniform (15/10) 2 (d_c1 d) * d_r1 d * (best - x)
  + uniform (15/10) 2 (d_c2 d) * d_r2 d * (guide - x).

(** OMOPSO.py:126-136: the new position and the speed, reversed if the position had to be corrected. *)
Definition new_position (lb ub x s : R) : R * R :=
  let new_x := x + s in
  let bounded_x := Rmin (Rmax new_x lb) ub in
  (bounded_x, if Req_EM_T bounded_x new_x then s else s * -1).

(** OMOPSO.py:74-78: one step. *)
Definition fly (lb ub : R) (state : R * R) (input : draws * R * R) : R * R :=
  let '(x, s) := state in let '(d, best, guide) := input in new_position lb ub x (new_speed d x s best guide).

(** Any number of steps, from rest (OMOPSO.py:240, 260-261), whatever the personal bests and leaders of each step. *)
Definition flight (lb ub x0 : R) (inputs : list (draws * R * R)) : R * R := fold_left (fly lb ub) inputs (x0, 0).
