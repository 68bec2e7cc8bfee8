(** What the properties of the real-valued variation operators talk about. *)
From Coq Require Import Reals List.
Import ListNotations.
Local Open Scope R_scope.

(** A vector inside its search box: one gene per pair of bounds, each within them. *)
Definition in_rbox (dims : list (R * R)) (v : list R) : Prop :=
  Forall2 (fun d x => fst d <= x <= snd d) dims v.

(** A value a call to random.random() can return (1 included). *)
Definition unit_draw (r : R) : Prop := 0 <= r <= 1.

Definition between (a b x : R) : Prop := Rmin a b <= x <= Rmax a b.

(** x^n for a non-negative real x. *)
Definition pw (x y : R) : R := if Req_EM_T x 0 then 0 else Rpower x y.

(** The polynomial distribution of the spread factor [q] of simulated binary crossover (Deb), not yet
    normalised: it grows like q^n up to 1 and like 2 - q^-n beyond. *)
Definition sbx_law (n q : R) : R := if Rle_dec q 1 then pw q n else 2 - Rpower q (- n).
