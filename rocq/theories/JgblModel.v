(** Model of the JGBL driver, a subclass of NSGA-II with gene jumping.
    Source: algorithms/JGBL/JGBL.py:7-99.  The inherited methods are those of NsgaModel; the
    vector operations cut_and_paste and copy_and_paste (101-126) are modelled over the rationals in
    VarModel (theorems C20) and enter here as functions of the call number and the two vectors. *)
From Verif Require Import Spec DomModel NDSortModel VarModel SortModel NsgaModel.
From Coq Require Import QArith.
Local Open Scope nat_scope.

(** What one step draws beyond the draws of NSGA-II's step.
    JGBL.py:72-99, 108-109, 120-121, 142-144. *)
Record jump_draws := {
  j_union : list indiv -> list indiv;        (* iteration order of the set of line 47 *)
  j_union2 : list indiv -> list indiv;       (* iteration order of the set of line 64 *)
  j_jumps : nat -> bool;                     (* random.random() < jumping_rate for individual i, line 75 *)
  j_choice : nat -> nat;                     (* random.choice of lines 80 and 83 *)
  j_cut : nat -> vec -> vec -> vec * vec;    (* cut_and_paste, call k *)
  j_copy : nat -> vec -> vec -> vec * vec    (* copy_and_paste, call k *)
}.

(** JGBL.py:76-98: the six new vectors of individual number i; [nondominated] are the vectors to choose
    from; None = IndexError of random.choice. *)
Definition jump_one (J : jump_draws) (nondominated : list vec) (i : nat) (v : vec) : option (list vec) :=
  let cut_self := snd (j_cut J (2 * i) v v) in
  let copy_self := snd (j_copy J (2 * i) v v) in
  match nondominated with
  | [] => None
  | _ =>
      let n := length nondominated in
      let '(cut_ind1, cut_ind2) := j_cut J (2 * i + 1) v (nth (j_choice J (2 * i) mod n) nondominated []) in
      let '(copy_ind1, copy_ind2) := j_copy J (2 * i + 1) v (nth (j_choice J (2 * i + 1) mod n) nondominated []) in
      Some [cut_self; copy_self; cut_ind1; cut_ind2; copy_ind1; copy_ind2]
  end.

(** JGBL.py:72-99: the loop over the population, [i] the number of the next individual. *)
Fixpoint jump_genes (J : jump_draws) (nondominated : list vec) (i : nat) (pop : list vec) : option (list vec) :=
  match pop with
  | [] => Some []
  | v :: pop' =>
      match (if j_jumps J i then jump_one J nondominated i v else Some []),
            jump_genes J nondominated (S i) pop' with
      | Some a, Some b => Some (a ++ b)
      | _, _ => None
      end
  end.

(** JGBL.py:42-70.  The survivors at the head of NSGA-II's new population are the same objects as members
    of the old one, so the set of line 47 holds the old population and the offspring.  self.front[1] is
    read in the order of the sort (the crowding pass re-sorts it in place), which only renumbers the
    draws of random.choice. *)
Definition jstep (P : params) (D : step_draws) (J : jump_draws) (s : nstate) : option nstate :=
  match step P D s with
  | None => None
  | Some s1 =>
      let offspring := skipn (Nat.min (population_size s) (length (individuals s))) (individuals s1) in
      let s2 := with_individuals s1 (j_union J (individuals s ++ offspring)) in
      match sort_and_select P s2,
            nsgaii_nd_sort (obj_at (individuals s2)) (p_iter P) (seq 0 (length (individuals s2))) with
      | Some (surv, _), Some fronts =>
          let front1 := hd [] fronts in
          if length surv <? length front1 then
            let others := filter (fun n => negb (existsb (Nat.eqb n) surv)) front1 in
            match select_positions (individuals s2) surv, select_positions (individuals s2) others with
            | Some kept, Some nondominated =>
                match jump_genes J (map iv nondominated) 0 (map iv kept) with
                | None => None
                | Some jumping =>
                    let new := map (fun v => mk_indiv (p_trim P v) None) jumping in
                    let s3 := calculate_objectives P (with_individuals s2 (j_union2 J (kept ++ new))) in
                    match sort_and_select P s3 with
                    | None => None
                    | Some (surv3, _) =>
                        match select_positions (individuals s3) surv3 with
                        | None => None
                        | Some l => Some (with_individuals s3 l)
                        end
                    end
                end
            | _, _ => None
            end
          else Some s1
      | _, _ => None
      end
  end.

(** Calls a user makes on the driver. JGBL.py:42-70, NSGAII.py:72-86. *)
Inductive jop := JStep (D : step_draws) (J : jump_draws) | JFinalize.

(** JGBL.py:42-70, NSGAII.py:72-86. *)
Definition run_jop (P : params) (s : nstate) (o : jop) : option nstate :=
  match o with
  | JStep D J => jstep P D J s
  | JFinalize => match finish P s with Some (s', _) => Some s' | None => None end
  end.

(** JGBL.py:42-70, NSGAII.py:72-86: a history of calls. *)
Fixpoint run_jops (P : params) (s : nstate) (ops : list jop) : option nstate :=
  match ops with
  | [] => Some s
  | o :: ops' => match run_jop P s o with Some s' => run_jops P s' ops' | None => None end
  end.
