(** Specification of what a command line asks for. *)
Require Import String Ascii List NArith ZArith QArith.
From Verif Require Import PyStr ConfModel RunConfModel.
Import ListNotations.
Open Scope string_scope.

(** Equal up to the case of letters. *)
Definition same_name (a b : string) : Prop := lower a = lower b.

(** A word of a comma-separated list. *)
Fixpoint word (s : string) : Prop :=
  match s with
  | EmptyString => True
  | String x r => x <> ","%char /\ word r
  end.

(** What an option value says about a name: left out (or empty) it says nothing; otherwise it
    is a comma-separated list of names. *)
Inductive names (o : option string) (ws : list string) : Prop :=
| names_intro : ws <> [] -> (forall x, In x ws -> word x) -> String.concat "," ws <> "" ->
    o = Some (String.concat "," ws) -> names o ws.

Definition left_out (o : option string) : Prop := o = None \/ o = Some "".

(** The problems (algorithms) meant. *)
Definition chosen (all : list string) (ws : list string) (x : string) : Prop :=
  In x all /\ exists y, In y ws /\ same_name y x.

(** A problem with at least one dimension and a front with at least one point. *)
Definition ordinary (pm : problem_mod cval) : Prop :=
  (exists d ds, pm_dims pm = VSeq (d :: ds)) /\
  (exists p ps, pm_extra pm = VSeq (VSeq p :: ps)).

(** Driver [a] with options [c] is the prepared driver or one of the drivers inside it. *)
Inductive level : val cval -> string -> conf cval -> Prop :=
| level_here a c : level (Partial a c) a c
| level_below a c inner b d : In ("driver", inner) c -> level inner b d -> level (Partial a c) b d.

(** The operator settings of algorithm [a] on a problem with [n] coordinates whose front has [m] objectives:
    mutation once per vector on average, crossover in nine cases of ten (HGS: on each of its three levels),
    and the point (50, ..., 50) as reference where a hypervolume is measured. *)
Definition fitted (n m : nat) (a : string) (c : conf cval) : Prop :=
  (if str_in a ["HGS"; "DHGS"] then
     exists q, (q * inject_Z (Z.of_nat n) == 1)%Q /\ In ("mutation_rates", nums [q; q; q]) c /\
               In ("crossover_rates", nums [(9#10)%Q; (9#10)%Q; (9#10)%Q]) c
   else
     exists q, (q * inject_Z (Z.of_nat n) == 1)%Q /\ In ("mutation_rate", num q) c /\
               In ("crossover_rate", num (9#10)%Q) c) /\
  (str_in a ["HGS"; "DHGS"; "SMSEMOA"] = true -> In ("reference_point", nums (repeat 50%Q m)) c).
