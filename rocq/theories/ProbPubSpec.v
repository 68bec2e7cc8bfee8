(** The test functions as their authors published them, for any number [n] of variables.

    ZDT1-ZDT6: Zitzler, Deb and Thiele, Comparison of multiobjective evolutionary
    algorithms, 2000.  UF1-UF10: Zhang et al., Multiobjective optimization test instances for
    the CEC 2009 special session.  Kursawe 1990, Ackley 1987.

    [x j] is the j-th variable, counted from one as in the publications. *)
From Coq Require Import Reals List.
Import ListNotations.
Local Open Scope R_scope.

Definition sum_over {A} (J : list A) (f : A -> R) : R := fold_right (fun a s => f a + s) 0 J.
Definition prod_over {A} (J : list A) (f : A -> R) : R := fold_right (fun a s => f a * s) 1 J.
Definition size {A} (J : list A) : R := INR (length J).

(** the numbers a, ..., b *)
Definition range (a b : nat) : list nat := seq a (S b - a).

(** a fractional power of a number that is not negative *)
Definition power (x a : R) : R := if Req_EM_T x 0 then 0 else Rpower x a.

(** the j-th variable of a vector *)
Definition variable (x : list R) (j : nat) : R := nth (j - 1) x 0.

Section Functions.
  Variable n : nat.
  Variable x : nat -> R.

  (** ** ZDT: f1 and f2 = g * h(f1, g) *)
  Definition zdt (f1 g h : R) : list R := [f1; g * h].
  Definition zdt1_g : R := 1 + 9 / (INR n - 1) * sum_over (range 2 n) x.
  Definition zdt1 : list R := zdt (x 1%nat) zdt1_g (1 - sqrt (x 1%nat / zdt1_g)).
  Definition zdt2 : list R := zdt (x 1%nat) zdt1_g (1 - (x 1%nat / zdt1_g) ^ 2).
  Definition zdt3 : list R :=
    zdt (x 1%nat) zdt1_g
      (1 - sqrt (x 1%nat / zdt1_g) - x 1%nat / zdt1_g * sin (10 * PI * x 1%nat)).
  Definition zdt4_g : R :=
    1 + 10 * (INR n - 1) + sum_over (range 2 n) (fun j => x j ^ 2 - 10 * cos (4 * PI * x j)).
  Definition zdt4 : list R := zdt (x 1%nat) zdt4_g (1 - sqrt (x 1%nat / zdt4_g)).
  Definition zdt6_f1 : R := 1 - exp (-4 * x 1%nat) * sin (6 * PI * x 1%nat) ^ 6.
  Definition zdt6_g : R := 1 + 9 * power (sum_over (range 2 n) x / (INR n - 1)) (1 / 4).
  Definition zdt6 : list R := zdt zdt6_f1 zdt6_g (1 - (zdt6_f1 / zdt6_g) ^ 2).

  (** ** UF1-UF7: two objectives, odd and even variables *)
  Definition odds : list nat := filter Nat.odd (range 2 n).
  Definition evens : list nat := filter Nat.even (range 2 n).
  Definition centred (j : nat) : R := x j - sin (6 * PI * x 1%nat + INR j * PI / INR n).

  Definition uf1_term (J : list nat) : R := 2 / size J * sum_over J (fun j => centred j ^ 2).
  Definition uf1 : list R :=
    [x 1%nat + uf1_term odds; 1 - sqrt (x 1%nat) + uf1_term evens].

  Definition uf2_y (trig : R -> R) (j : nat) : R :=
    x j - (0.3 * x 1%nat ^ 2 * cos (24 * PI * x 1%nat + 4 * INR j * PI / INR n)
           + 0.6 * x 1%nat) * trig (6 * PI * x 1%nat + INR j * PI / INR n).
  Definition uf2_term (J : list nat) (trig : R -> R) : R :=
    2 / size J * sum_over J (fun j => uf2_y trig j ^ 2).
  Definition uf2 : list R :=
    [x 1%nat + uf2_term odds cos; 1 - sqrt (x 1%nat) + uf2_term evens sin].

  Definition multimodal (y : nat -> R) (J : list nat) : R :=
    2 / size J * (4 * sum_over J (fun j => y j ^ 2)
                  - 2 * prod_over J (fun j => cos (20 * y j * PI / sqrt (INR j))) + 2).
  Definition uf3_dist (j : nat) : R :=
    x j - power (x 1%nat) (0.5 * (1 + 3 * (INR j - 2) / (INR n - 2))).
  Definition uf3 : list R :=
    [x 1%nat + multimodal uf3_dist odds; 1 - sqrt (x 1%nat) + multimodal uf3_dist evens].

  Definition uf4_shape (t : R) : R := Rabs t / (1 + exp (2 * Rabs t)).
  Definition uf4_term (J : list nat) : R := 2 / size J * sum_over J (fun j => uf4_shape (centred j)).
  Definition uf4 : list R := [x 1%nat + uf4_term odds; 1 - x 1%nat ^ 2 + uf4_term evens].

  (** [N] and [eps] are parameters of UF5 and UF6: 10 and 0.1, 2 and 0.1. *)
  Definition uf5_shape (t : R) : R := 2 * t ^ 2 - cos (4 * PI * t) + 1.
  Definition uf5_ripple (N eps : R) : R :=
    (1 / (2 * N) + eps) * Rabs (sin (2 * N * PI * x 1%nat)).
  Definition uf5_term (J : list nat) : R := 2 / size J * sum_over J (fun j => uf5_shape (centred j)).
  Definition uf5 (N eps : R) : list R :=
    [x 1%nat + uf5_ripple N eps + uf5_term odds; 1 - x 1%nat + uf5_ripple N eps + uf5_term evens].

  Definition uf6_gap (N eps : R) : R :=
    Rmax 0 (2 * (1 / (2 * N) + eps) * sin (2 * N * PI * x 1%nat)).
  Definition uf6 (N eps : R) : list R :=
    [x 1%nat + uf6_gap N eps + multimodal centred odds;
     1 - x 1%nat + uf6_gap N eps + multimodal centred evens].

  Definition uf7 : list R :=
    [power (x 1%nat) (1 / 5) + uf1_term odds; 1 - power (x 1%nat) (1 / 5) + uf1_term evens].

  (** ** UF8-UF10: three objectives.  The variables are shared out by the remainder of the
      index: [J1], [J2] and [J3] hold the j for which j - 1, j - 2 and j are multiples of 3. *)
  Definition multiples (k : nat) : list nat :=
    filter (fun j => Nat.eqb ((j - k) mod 3) 0) (range 3 n).
  (** (what the program takes instead) *)
  Definition others (k : nat) : list nat :=
    filter (fun j => negb (Nat.eqb ((j - k) mod 3) 0)) (range 3 n).
  Definition centred3 (j : nat) : R :=
    x j - 2 * x 2%nat * sin (2 * PI * x 1%nat + INR j * PI / INR n).

  Definition share3 (J : nat -> list nat) (h : R -> R) (k : nat) : R :=
    2 / size (J k) * sum_over (J k) (fun j => h (centred3 j)).
  Definition sphere (J : nat -> list nat) (h : R -> R) : list R :=
    [cos (0.5 * x 1%nat * PI) * cos (0.5 * x 2%nat * PI) + share3 J h 1;
     cos (0.5 * x 1%nat * PI) * sin (0.5 * x 2%nat * PI) + share3 J h 2;
     sin (0.5 * x 1%nat * PI) + share3 J h 0].
  Definition uf8 (J : nat -> list nat) : list R := sphere J (fun y => y ^ 2).
  Definition uf10 (J : nat -> list nat) : list R := sphere J (fun y => 4 * y ^ 2 - cos (8 * PI * y) + 1).

  Definition uf9_gap (eps : R) : R := Rmax 0 ((1 + eps) * (1 - 4 * (2 * x 1%nat - 1) ^ 2)).
  Definition uf9 (J : nat -> list nat) (eps : R) : list R :=
    let h := fun y => y ^ 2 in
    [0.5 * (uf9_gap eps + 2 * x 1%nat) * x 2%nat + share3 J h 1;
     0.5 * (uf9_gap eps - 2 * x 1%nat + 2) * x 2%nat + share3 J h 2;
     1 - x 2%nat + share3 J h 0].

  (** ** Kursawe, Ackley *)
  Definition kursawe_published : list R :=
    [sum_over (range 1 (n - 1)) (fun i => -10 * exp (-0.2 * sqrt (x i ^ 2 + x (S i) ^ 2)));
     sum_over (range 1 n) (fun i => power (Rabs (x i)) 0.8 + 5 * sin (x i ^ 3))].

  Definition ackley_published : R :=
    -20 * exp (-0.2 * sqrt (1 / INR n * sum_over (range 1 n) (fun i => x i ^ 2)))
    - exp (1 / INR n * sum_over (range 1 n) (fun i => cos (2 * PI * x i))) + 20 + exp 1.
End Functions.

(** [v] and [w] agree up to [eps] in every entry. *)
Definition within (eps : R) (v w : list R) : Prop := Forall2 (fun a b => Rabs (a - b) <= eps) v w.
