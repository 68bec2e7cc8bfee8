(** Specification of dates and their order. *)
Require Import List NArith.
From Verif Require Import IdModel.
Import ListNotations.
Local Open Scope N_scope.

(** A date the clock can give (years 1000 to 9999). *)
Record clock_date (d : date) : Prop := {
  cd_year : 1000 <= d_year d < 10000;
  cd_month : 1 <= d_month d <= 12;
  cd_day : 1 <= d_day d <= 31;
  cd_hour : d_hour d < 24;
  cd_minute : d_minute d < 60;
  cd_second : d_second d < 60;
  cd_micro : d_micro d < 1000000
}.

(** The fields, most significant first. *)
Definition fields (d : date) : list N :=
  [d_year d; d_month d; d_day d; d_hour d; d_minute d; d_second d; d_micro d].

(** Lexicographic order: [a] comes strictly before [b]. *)
Inductive before : list N -> list N -> Prop :=
| before_here : forall x y a b, x < y -> before (x :: a) (y :: b)
| before_there : forall x a b, before a b -> before (x :: a) (x :: b).

(** Run [n] started at [d] comes before run [n'] started at [d']. *)
Definition earlier (d : date) (n : N) (d' : date) (n' : N) : Prop :=
  before (fields d ++ [n]) (fields d' ++ [n']).

(** The numbers [random.randint(1000000, 9999999)] can give. *)
Definition random_id (n : N) : Prop := 1000000 <= n <= 9999999.
