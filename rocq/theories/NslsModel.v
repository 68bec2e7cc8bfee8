(** Model of the NSLS driver.  Source: algorithms/NSLS/NSLS.py.
    Individuals are those of NSGA-II ([indiv]: vector and, once evaluated, objectives).
    None = exception unless said otherwise. *)
From Verif Require Import Spec DomModel NDSortModel VarModel NsgaModel MetModel SmsModel.
From Coq Require Import QArith.
Local Open Scope nat_scope.

(** cost, fitness archive, trace of evaluated vectors *)
Notation context := (nat * option (list (vec * vec)) * list vec)%type.

(** x.objectives of an evaluated individual. NSLS.py:75-78, 183. *)
Definition objs (i : indiv) : vec := match iobj i with Some o => o | None => [] end.

(** NSLS.py:91-105: ind_x with coordinate k moved by [d] (diff or -diff), trimmed, and reset if
    it left the box; None = IndexError. *)
Definition candidate (P : params) (x : vec) (k : nat) (d : Z) : option vec :=
  match nth_error x k, nth_error (p_dims P) k with
  | Some xk, Some (lb, ub) =>
      let w := p_trim P (set_nth k (xk + d)%Z x) in
      match nth_error w k with
      | Some wk => Some (if (wk <? lb)%Z || (ub <? wk)%Z then set_nth k xk w else w)
      | None => None
      end
  | _, _ => None
  end.

(** NSLS.py:107-128: the individual that takes the place of [x]; [coin] is random.choice (true =
    w_plus); None = [x] stays. *)
Definition replacement (coin : bool) (x w_plus w_minus : indiv) : option indiv :=
  let plus_dominates := nsga_dominates (objs w_plus) (objs x) in
  let plus_dominated := nsga_dominates (objs x) (objs w_plus) in
  let minus_dominates := nsga_dominates (objs w_minus) (objs x) in
  let minus_dominated := nsga_dominates (objs x) (objs w_minus) in
  if plus_dominates && minus_dominates then Some (if coin then w_plus else w_minus)
  else if plus_dominates then Some w_plus
  else if minus_dominates then Some w_minus
  else if negb plus_dominated && negb minus_dominated then Some (if coin then w_plus else w_minus)
  else if negb plus_dominated then Some w_plus
  else if negb minus_dominated then Some w_minus
  else None.

(** The draws for position i and coordinate k: the two sampled positions (line 92), the product
    c * (difference) as a function of the difference (lines 90, 92) and the choice. *)
Record ls_draws := {
  ls_sample : nat -> nat -> nat * nat;
  ls_scaled : nat -> nat -> Z -> Z;
  ls_coin : nat -> nat -> bool
}.

(** NSLS.py:89-128: the body of the inner loop.  Each entry of individuals_copy carries a flag:
    it is not one of the original objects any more. *)
Definition search_one (P : params) (D : ls_draws) (i k : nat)
           (st : list (indiv * bool) * context) : option (list (indiv * bool) * context) :=
  let '(copy, ctx) := st in
  let '(a, b) := ls_sample D i k in
  if a =? b then None
  else
    match nth_error copy i, nth_error copy a, nth_error copy b with
    | Some (x, _), Some (u, _), Some (v, _) =>
        match nth_error (iv u) k, nth_error (iv v) k with
        | Some uk, Some vk =>
            let diff := ls_scaled D i k (uk - vk)%Z in
            match candidate P (iv x) k diff, candidate P (iv x) k (- diff)%Z with
            | Some p, Some m =>
                match fold_left (evaluate P) [mk_indiv p None; mk_indiv m None] ([], ctx) with
                | ([w_plus; w_minus], ctx') =>
                    Some (match replacement (ls_coin D i k) x w_plus w_minus with
                          | Some w => set_nth i (w, true) copy
                          | None => copy
                          end, ctx')
                | _ => None
                end
            | _, _ => None
            end
        | _, _ => None
        end
    | _, _, _ => None
    end.

(** A for loop whose body may raise. NSLS.py:88-128. *)
Fixpoint for_each {A S} (body : A -> S -> option S) (l : list A) (s : S) : option S :=
  match l with
  | [] => Some s
  | a :: l' => match body a s with Some s' => for_each body l' s' | None => None end
  end.

(** NSLS.py:86-132: the new self.individuals. *)
Definition local_search (P : params) (D : ls_draws) (st : list indiv * context) : option (list indiv * context) :=
  let '(inds, ctx) := st in
  match for_each (fun i => for_each (search_one P D i) (seq 0 (length (p_dims P))))
                 (seq 0 (length inds)) (map (fun x => (x, false)) inds, ctx) with
  | None => None
  | Some (copy, ctx') => Some (inds ++ map fst (filter snd copy), ctx')
  end.

(** ---- next_generation ---- *)

(** NSLS.py:166-172: the while loop; [fronts] lists front[1], front[2], ... and every later
    front is empty (a defaultdict).  None = out of fuel. *)
Fixpoint fill (fuel size : nat) (fronts : list (list nat)) (front_no : nat) (next_gen : list nat)
  : option (list nat * list nat) :=
  let front := nth front_no fronts [] in
  if length next_gen + length front <=? size then
    match fuel with
    | O => None
    | S fuel' => fill fuel' size fronts (S front_no) (next_gen ++ front)
    end
  else Some (next_gen, front).

Section Select.
  Variable pop : list indiv.
  (** NSLS.py:162-221: the individual at a position. *)
  Definition at_pos (i : nat) : indiv := nth i pop (mk_indiv [] None).

  (** "if x not in additional: additional.append(x)". NSLS.py:190-193. *)
  Definition add_new (x : nat) (additional : list nat) : list nat :=
    if existsb (Nat.eqb x) additional then additional else additional ++ [x].

  (** NSLS.py:178-193 for one objective: the current minimum and maximum (None = +-inf). *)
  Fixpoint extremes_loop (j : nat) (mn mx : option (Z * nat)) (last_front additional : list nat) : list nat :=
    match last_front with
    | [] => additional
    | x :: l =>
        let o := nth j (objs (at_pos x)) 0%Z in
        let mn' := match mn with Some (m, i) => if (o <? m)%Z then (o, x) else (m, i) | None => (o, x) end in
        let mx' := match mx with Some (m, i) => if (m <? o)%Z then (o, x) else (m, i) | None => (o, x) end in
        extremes_loop j (Some mn') (Some mx') l (add_new (snd mx') (add_new (snd mn') additional))
    end.
  (** NSLS.py:177-193 *)
  Definition extremes (m : nat) (last_front : list nat) : list nat :=
    fold_left (fun additional j => extremes_loop j None None last_front additional) (seq 0 m) [].

  (** scipy's distance.euclidean on the vectors, squared. NSLS.py:201-203, 216-218. *)
  Definition gap (x y : nat) : Z := euclid_sqr_distance (iv (at_pos x)) (iv (at_pos y)).

  (** NSLS.py:206-212: the first individual with the greatest distance. *)
  Fixpoint farthest (distances : nat -> Z) (best : nat) (l : list nat) : nat :=
    match l with
    | [] => best
    | x :: l' => farthest distances (if (distances best <? distances x)%Z then x else best) l'
    end.

  (** NSLS.py:214: last_front.remove(max_ind). *)
  Fixpoint remove_id (x : nat) (l : list nat) : list nat :=
    match l with [] => [] | y :: l' => if x =? y then l' else y :: remove_id x l' end.

  (** NSLS.py:205-218; an empty last_front makes last_front.remove(None) raise ValueError. *)
  Fixpoint spread (count : nat) (distances : nat -> Z) (last_front additional : list nat) : option (list nat) :=
    match count with
    | O => Some additional
    | S count' =>
        match last_front with
        | [] => None
        | x :: l =>
            let m := farthest distances x l in
            spread count' (fun i => Z.min (distances i) (gap i m)) (remove_id m last_front) (additional ++ [m])
        end
    end.

  (** NSLS.py:174-218: the members of the last front that are kept.  [sample k l] is
      random.sample(l, k); [m] is the number of objectives.  None = min([]) at line 202. *)
  Definition select_last (sample : nat -> list nat -> list nat) (m to_select : nat) (last_front : list nat)
    : option (list nat) :=
    let additional := extremes m last_front in
    if to_select <? length additional then Some (sample to_select additional)
    else if length additional <? to_select then
      let rest := filter (fun x => negb (existsb (Nat.eqb x) additional)) last_front in
      match comprehension (fun x => py_min (map (gap x) additional)) rest with
      | None => None
      | Some _ =>
          spread (to_select - length additional)
                 (fun x => match py_min (map (gap x) additional) with Some d => d | None => 0%Z end)
                 rest additional
      end
    else Some additional.
End Select.

(** What a call gives: a value, an exception, or out of fuel. NSLS.py:80-84. *)
Inductive outcome (A : Type) := Done (a : A) | Raised | OutOfFuel.
Arguments Done {A}. Arguments Raised {A}. Arguments OutOfFuel {A}.

(** NSLS.py:134-221: nd_sort and next_generation: the positions kept. *)
Definition next_generation (P : params) (fuel : nat) (sample : nat -> list nat -> list nat)
           (size : nat) (pop : list indiv) : outcome (list nat) :=
  match nsls_nd_sort (fun i => objs (at_pos pop i)) (p_iter P) (seq 0 (length pop)) with
  | None => OutOfFuel
  | Some fronts =>
      match fill fuel size fronts 0 [] with
      | None => OutOfFuel
      | Some (next_gen, last_front) =>
          match select_last pop sample (p_m P) (size - length next_gen) last_front with
          | None => Raised
          | Some additional => Done (next_gen ++ additional)
          end
      end
  end.

(** ---- the driver ----. NSLS.py:40-49. *)
Record nsls_state := { nl_individuals : list indiv; nl_size : nat; nl_context : context }.

(** NSLS.py:41-42, 55-58 *)
Definition nsls_init (P : params) (ar : option (list (vec * vec))) (population : list vec) : nsls_state :=
  {| nl_individuals := map (fun x => mk_indiv (p_trim P x) None) population;
     nl_size := length population; nl_context := (0, ar, []) |}.

(** NSLS.py:80-84 *)
Definition nsls_step (P : params) (fuel : nat) (D : ls_draws) (sample : nat -> list nat -> list nat)
           (s : nsls_state) : outcome nsls_state :=
  match local_search P D (fold_left (evaluate P) (nl_individuals s) ([], nl_context s)) with
  | None => Raised
  | Some (inds, ctx) =>
      match next_generation P fuel sample (nl_size s) inds with
      | Raised => Raised
      | OutOfFuel => OutOfFuel
      | Done pos => Done {| nl_individuals := map (at_pos inds) pos; nl_size := nl_size s; nl_context := ctx |}
      end
  end.

(** NSLS.py:60-61 *)
Definition nsls_finalized (s : nsls_state) : list vec := map iv (nl_individuals s).

(** NSLS.py:80-84, any number of steps. *)
Fixpoint nsls_steps (P : params) (fuel : nat) (Ds : list (ls_draws * (nat -> list nat -> list nat)))
         (s : nsls_state) : outcome nsls_state :=
  match Ds with
  | [] => Done s
  | (D, sample) :: Ds' =>
      match nsls_step P fuel D sample s with
      | Done s' => nsls_steps P fuel Ds' s'
      | Raised => Raised
      | OutOfFuel => OutOfFuel
      end
  end.
