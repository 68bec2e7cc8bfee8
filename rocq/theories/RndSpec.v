(** What is assumed of the arithmetic.  All of it holds for IEEE double precision (RndIeee.v). *)
From Coq Require Import Reals List.
From Verif Require Import OpSpec.
Import ListNotations.
Local Open Scope R_scope.

(** A number of the format. *)
Definition repr (rd : R -> R) (x : R) : Prop := rd x = x.

(** [last] is the largest value of random.random(). *)
Record arithmetic (rd : R -> R) (pw : R -> R -> R) (top eps last : R) : Prop := {
  rd_le : forall x y, x <= y -> rd x <= rd y;
  rd_repr : forall x, repr rd (rd x);
  rd_opp : forall x, repr rd x -> repr rd (- x);
  rd_zero : repr rd 0; rd_half : repr rd (1 / 2); rd_one : repr rd 1; rd_two : repr rd 2;
  rd_eps : repr rd eps; eps_pos : 0 < eps;
  (** the largest draw is less than 1 and doubling it is exact *)
  last_lt : last < 1; last_two : repr rd (2 * last); last_gap : repr rd (2 - 2 * last);
  (** complementary shares do not add up to more than 1 *)
  share_low : forall a, repr rd a -> 0 <= a <= 1 -> rd (a + rd (1 - a)) <= 1;
  share_high : forall r, repr rd r -> 1 / 2 < r < 1 -> rd (rd (2 * rd (1 - r)) + rd (2 * rd (r - 1 / 2))) <= 1;
  (** pow: a rough enclosure, no accuracy is assumed *)
  pw_repr : forall x y, 0 <= x -> repr rd (pw x y);
  pw_pos : forall x y, 0 <= x -> 0 <= pw x y;
  pw_share : forall x y, 0 <= x <= 1 -> 0 <= y -> pw x y <= 1;
  pw_falls : forall x y, 1 <= x -> y <= 0 -> pw x y <= 1;
  pw_root : forall x y, repr rd x -> 1 <= x -> 0 <= y <= 1 -> pw x y <= x;
  pw_base_0 : forall y, 0 < y -> pw 0 y = 0;
  pw_exp_0 : forall x, 0 <= x -> pw x 0 = 1;
  top_large : 2 <= top; top_gap : rd (1 / (2 - 2 * last)) <= top
}.

(** A value random.random() can return. *)
Definition draw (rd : R -> R) (last r : R) : Prop := repr rd r /\ 0 <= r <= last.

(** A vector of numbers inside the box. *)
Definition in_fbox (rd : R -> R) (dims : list (R * R)) (v : list R) : Prop :=
  in_rbox dims v /\ Forall (repr rd) v /\ Forall (fun d => repr rd (fst d) /\ repr rd (snd d)) dims.
