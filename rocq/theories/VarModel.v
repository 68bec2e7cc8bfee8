(** Model of the variation operators.
    Source: algorithms/base/drivertools.py, algorithms/NSGAIII/NSGAIII.py,
    algorithms/OMOPSO/OMOPSO.py, algorithms/JGBL/JGBL.py, evotools/ea_utils.py.

    Random draws are oracle arguments indexed by the gene (or by the individual) they are
    drawn for.  The closed formulas that turn a draw into a raw gene value (they use pow)
    are arbitrary functions: the theorems hold for every value they can produce. *)
From Verif Require Import Spec.
From Coq Require Import QArith.
Local Open Scope Z_scope.

(** l[i] = v for an index inside the list (Python raises IndexError otherwise; callers in
    this model only write indices they have just read). drivertools.py:44, 87-105. *)
Fixpoint set_nth {A} (i : nat) (v : A) (l : list A) {struct l} : list A :=
  match l with
  | [] => []
  | a :: l' => match i with O => v :: l' | S i' => a :: set_nth i' v l' end
  end.

(** min(ub, max(lb, y)) - drivertools.py:42, 100-101; NSGAIII.py:426-427, 470. *)
Definition clamp (lb ub y : Z) : Z := Z.min ub (Z.max lb y).

(** ---- drivertools.mutate, 10-45 ---- *)
Section Mutate.
  (** [raw lb ub y rnd]: y + delta_q * (ub - lb), lines 19-41. *)
  Variable raw : Z -> Z -> Z -> Z -> Z.
  (** random.random() at line 13 and line 24 for gene i. *)
  Variables sel rnd : nat -> Z.
  Variable mutation_rate : Z.

  (** lines 12-45; None = IndexError at line 16. *)
  Fixpoint mutate_loop (xs : vec) (i : nat) (dims : box) (new_xs : vec) : option vec :=
    match dims with
    | [] => Some new_xs
    | (lb, ub) :: dims' =>
        if mutation_rate <? sel i then mutate_loop xs (S i) dims' new_xs
        else match nth_error xs i with
             | None => None
             | Some y =>
                 mutate_loop xs (S i) dims' (set_nth i (clamp lb ub (raw lb ub y (rnd i))) new_xs)
             end
    end.
  (** drivertools.py:10-45. *)
  Definition mutate (xs : vec) (dims : box) : option vec := mutate_loop xs 0 dims xs.
End Mutate.

(** ---- drivertools.crossover, 59-108 ---- *)
Section Crossover.
  (** [raw_a lb ub y1 y2 rand]: line 87; [raw_b lb ub y1 y2 rand]: line 97. *)
  Variables raw_a raw_b : Z -> Z -> Z -> Z -> Z -> Z.
  (** random.random() at lines 67, 77, 103 for gene i. *)
  Variables skip rand swap : nat -> Z.
  Variables half epsilon : Z.

  (** lines 66-106: the loop over dims, shared with NSGAIII.py:398-432, which is the same
      code on parent_a.v / parent_b.v and child_a.v / child_b.v.  None = IndexError at
      line 69 (NSGAIII.py:401). *)
  Fixpoint sbx_loop (xs ys : vec) (i : nat) (dims : box) (new_xs new_ys : vec)
    : option (vec * vec) :=
    match dims with
    | [] => Some (new_xs, new_ys)
    | (lb, ub) :: dims' =>
        if half <? skip i then sbx_loop xs ys (S i) dims' new_xs new_ys
        else match nth_error xs i, nth_error ys i with
             | Some x, Some y =>
                 if Z.abs (x - y) <=? epsilon then sbx_loop xs ys (S i) dims' new_xs new_ys
                 else
                   let y1 := Z.min x y in
                   let y2 := Z.max x y in
                   let a := clamp lb ub (raw_a lb ub y1 y2 (rand i)) in
                   let b := clamp lb ub (raw_b lb ub y1 y2 (rand i)) in
                   if half <? swap i
                   then sbx_loop xs ys (S i) dims' (set_nth i b new_xs) (set_nth i a new_ys)
                   else sbx_loop xs ys (S i) dims' (set_nth i a new_xs) (set_nth i b new_ys)
             | _, _ => None
             end
    end.

  (** lines 59-108: [r0] is the draw of line 63, [pick] the random.choice of line 64 or 108
      (true = new_xs). *)
  Definition crossover (r0 crossover_rate : Z) (pick : bool) (xs ys : vec) (dims : box)
    : option vec :=
    if crossover_rate <? r0 then Some (if pick then xs else ys)
    else match sbx_loop xs ys 0 dims xs ys with
         | Some (nx, ny) => Some (if pick then nx else ny)
         | None => None
         end.
End Crossover.

(** ---- NSGAIII.py ---- *)

(** NSGAIII.py:309-316: an individual; objectives is None until evaluated. *)
Record indiv3 := mk3 { v3 : vec; objs3 : option vec }.

Section NSGAIIIVariation.
  Variables raw_a raw_b : Z -> Z -> Z -> Z -> Z -> Z.
  Variables skip rand swap : nat -> Z.
  Variables half epsilon : Z.

  (** NSGAIII.py:389-434; [r0] is the draw of line 393.  None = an exception: IndexError at
      401, or TypeError at 394-395 when a parent has not been evaluated. *)
  Definition simulated_binary_crossover (r0 crossover_rate : Z) (pa pb : indiv3) (dims : box)
    : option (indiv3 * indiv3) :=
    if crossover_rate <? r0 then
      match objs3 pa, objs3 pb with
      | Some oa, Some ob => Some (mk3 (v3 pa) (Some oa), mk3 (v3 pb) (Some ob))
      | _, _ => None
      end
    else match sbx_loop raw_a raw_b skip rand swap half epsilon (v3 pa) (v3 pb) 0 dims
                        (v3 pa) (v3 pb) with
         | Some (ca, cb) => Some (mk3 ca None, mk3 cb None)
         | None => None
         end.

  Variable raw : Z -> Z -> Z -> Z -> Z.
  Variables sel rnd : nat -> Z.
  Variable mutation_rate : Z.

  (** NSGAIII.py:445-473: works in place, reading the gene it is about to overwrite. *)
  Fixpoint polynomial_mutation_loop (i : nat) (dims : box) (ind : indiv3) : option indiv3 :=
    match dims with
    | [] => Some ind
    | (lb, ub) :: dims' =>
        if mutation_rate <? sel i then polynomial_mutation_loop (S i) dims' ind
        else match nth_error (v3 ind) i with
             | None => None
             | Some y =>
                 polynomial_mutation_loop (S i) dims'
                   (mk3 (set_nth i (clamp lb ub (raw lb ub y (rnd i))) (v3 ind)) None)
             end
    end.
  (** NSGAIII.py:445-473. *)
  Definition polynomial_mutation (dims : box) (ind : indiv3) : option indiv3 :=
    polynomial_mutation_loop 0 dims ind.
End NSGAIIIVariation.

(** ---- OMOPSO.py ---- *)

(** OMOPSO.py:126-136: the inner loop for one particle; None = IndexError. *)
Fixpoint move_loop (dims : box) (value speed : vec) : option (vec * vec) :=
  match dims with
  | [] => Some (value, speed)
  | (lb, ub) :: dims' =>
      match value, speed with
      | x :: value', s :: speed' =>
          let new_x := x + s in
          let bounded := Z.min (Z.max new_x lb) ub in
          match move_loop dims' value' speed' with
          | Some (vs, ss) =>
              Some (bounded :: vs, (if negb (bounded =? new_x) then - s else s) :: ss)
          | None => None
          end
      | _, _ => None
      end
  end.
(** OMOPSO.py:126-136. *)
Definition move := move_loop.

(** OMOPSO.py:186-193: Mutation.__call__ for one particle.  [touch i]: the draw of line 188
    is below the probability; [delta i x]: do_mutation(p, i) (UniformMutation 200-201 or
    NonUniformMutation 211-223), which may read the current coordinate. *)
Fixpoint omopso_mutation (touch : nat -> bool) (delta : nat -> Z -> Z) (i : nat)
         (dims : box) (value : vec) : option vec :=
  match dims with
  | [] => Some value
  | (lb, ub) :: dims' =>
      match value with
      | [] => if touch i then None else omopso_mutation touch delta (S i) dims' []
      | x :: value' =>
          match omopso_mutation touch delta (S i) dims' value' with
          | Some vs =>
              Some ((if touch i then Z.min (Z.max (x + delta i x) lb) ub else x) :: vs)
          | None => None
          end
      end
  end.

(** ---- JGBL.py, over exact rationals (no rounding) ---- *)
Local Open Scope Q_scope.
(** evotools/ea_utils.py:7: dims. *)
Definition qbox := list (Q * Q).

(** JGBL.py:157-161; dims are indexed by the position of the gene.  None = IndexError (more
    genes than dims) or ZeroDivisionError (an empty interval). *)
Fixpoint convert_to_ratio (dims : qbox) (x : list Q) : option (list Q) :=
  match x with
  | [] => Some []
  | a :: x' =>
      match dims with
      | [] => None
      | (lb, ub) :: dims' =>
          if Qeq_bool (ub - lb) 0 then None
          else match convert_to_ratio dims' x' with
               | Some r => Some ((a - lb) / (ub - lb) :: r)
               | None => None
               end
      end
  end.

(** JGBL.py:135-139; None = IndexError. *)
Fixpoint decode_ratio (dims : qbox) (ratio : list Q) : option (list Q) :=
  match ratio with
  | [] => Some []
  | a :: r' =>
      match dims with
      | [] => None
      | (lb, ub) :: dims' =>
          match decode_ratio dims' r' with
          | Some xs => Some (lb + a * (ub - lb) :: xs)
          | None => None
          end
      end
  end.

(** JGBL.py:147: the genes at the given positions; None = IndexError. *)
Fixpoint pick_all {A} (l : list A) (idx : list nat) : option (list A) :=
  match idx with
  | [] => Some []
  | i :: idx' =>
      match nth_error l i, pick_all l idx' with
      | Some a, Some r => Some (a :: r)
      | _, _ => None
      end
  end.

(** del list_[index] (JGBL.py:154); None = IndexError. *)
Fixpoint del_nth {A} (i : nat) (l : list A) {struct l} : option (list A) :=
  match l with
  | [] => None
  | a :: l' =>
      match i with
      | O => Some l'
      | S i' => match del_nth i' l' with Some r => Some (a :: r) | None => None end
      end
  end.

(** JGBL.py:151-155: deletion of the sorted positions from the last one down. *)
Definition multi_delete {A} (l : list A) (idx : list nat) : option (list A) :=
  fold_left (fun acc i => match acc with Some l => del_nth i l | None => None end)
            (rev idx) (Some l).

(** JGBL.py:141-149 with the sorted sample [pos] given by the oracle. *)
Definition prepare_transposon (dims : qbox) (x : list Q) (pos : list nat)
  : option (list Q * list Q) :=
  match convert_to_ratio dims x with
  | Some ratio =>
      match pick_all ratio pos with
      | Some t => Some (ratio, t)
      | None => None
      end
  | None => None
  end.

(** JGBL.py:101-114; [xpos], [ypos]: the sorted samples of line 142, [xi], [yi]: the insertion
    points of lines 108-109. *)
Definition cut_and_paste (dims : qbox) (xpos ypos : list nat) (xi yi : nat) (x y : list Q)
  : option (list Q * list Q) :=
  match prepare_transposon dims x xpos, prepare_transposon dims y ypos with
  | Some (xr, xt), Some (yr, yt) =>
      match multi_delete xr xpos, multi_delete yr ypos with
      | Some xr', Some yr' =>
          match decode_ratio dims (firstn xi xr' ++ yt ++ skipn xi xr'),
                decode_ratio dims (firstn yi yr' ++ xt ++ skipn yi yr') with
          | Some a, Some b => Some (a, b)
          | _, _ => None
          end
      | _, _ => None
      end
  | _, _ => None
  end.

(** JGBL.py:128-133 *)
Fixpoint paste (x transposon : list Q) (pos : nat) : list Q :=
  match transposon with
  | [] => x
  | t :: ts =>
      let x' := set_nth pos t x in
      if (length x <=? S pos)%nat then x' else paste x' ts (S pos)
  end.

(** JGBL.py:116-126; [xi], [yi]: the positions of lines 120-121. *)
Definition copy_and_paste (dims : qbox) (xpos ypos : list nat) (xi yi : nat) (x y : list Q)
  : option (list Q * list Q) :=
  match prepare_transposon dims x xpos, prepare_transposon dims y ypos with
  | Some (xr, xt), Some (yr, yt) =>
      match decode_ratio dims (paste xr yt xi), decode_ratio dims (paste yr xt yi) with
      | Some a, Some b => Some (a, b)
      | _, _ => None
      end
  | _, _ => None
  end.

(** ---- ea_utils.gen_population, 7-11; [u k i] is the uniform [0,1) draw behind
    random.uniform(a, b) = a + (b - a) * u for individual k, gene i. ---- *)
Fixpoint gen_vector (u : nat -> Q) (i : nat) (dims : qbox) : list Q :=
  match dims with
  | [] => []
  | (a, b) :: dims' => a + (b - a) * u i :: gen_vector u (S i) dims'
  end.
(** evotools/ea_utils.py:7-11. *)
Definition gen_population (u : nat -> nat -> Q) (count : nat) (dims : qbox) : list (list Q) :=
  map (fun k => gen_vector (u k) 0 dims) (seq 0 count).
