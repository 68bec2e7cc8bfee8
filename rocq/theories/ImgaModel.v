(** Model of the island model IMGA.  Source: algorithms/IMGA/IMGA.py, algorithms/IMGA/topology.py,
    algorithms/IMGA/message.py, evotools/random_tools.py.  None = an exception. *)
From Verif Require Import Spec DomModel VarModel NsgaModel.
From Coq Require Import QArith.
Local Open Scope nat_scope.

(** Python l[a:b] for 0 <= a <= b. IMGA.py:98-103. *)
Definition slice {A} (a b : nat) (l : list A) : list A := firstn (b - a) (skipn a l).

(** IMGA.py:105-108: the loop over [is]. *)
Fixpoint append_rest {A} (pop : list A) (base : nat) (is : list nat) (subs : list (list A)) : option (list (list A)) :=
  match is with
  | [] => Some subs
  | i :: is' =>
      match nth_error subs i, nth_error pop (base + i) with
      | Some sub, Some x => append_rest pop base is' (set_nth i (sub ++ [x]) subs)
      | _, _ => None
      end
  end.
(** IMGA.py:96-112, the sub-populations.  int(a / b) is integer division here: true below 2^53. *)
Definition create_islands {A} (islands_number : nat) (init_population : list A) : option (list (list A)) :=
  if islands_number =? 0 then None
  else
    let subpop_size := length init_population / islands_number in
    append_rest init_population (islands_number * subpop_size) (seq 0 (length init_population mod islands_number))
      (map (fun i => slice (i * subpop_size) ((i + 1) * subpop_size) init_population) (seq 0 islands_number)).

(** ---- topology.py ---- *)
(** topology.py:27-32.  Python's (i - 1) % w is (i + w - 1) mod w, (i - w) % N is (i + N - w) mod N. *)
Definition full_row (w N i : nat) : list nat :=
  let row := i / w in
  [(i + w - 1) mod w + row * w; (i + 1) mod w + row * w; (i + N - w) mod N; (i + w) mod N].

(** list.remove(x): the first occurrence; None = ValueError. topology.py:51-55, 66. *)
Fixpoint remove_first (x : nat) (l : list nat) : option (list nat) :=
  match l with
  | [] => None
  | y :: l' => if x =? y then Some l' else match remove_first x l' with Some r => Some (y :: r) | None => None end
  end.

(** l.remove(x); l.append(y) where l is t[k]. topology.py:51-55. *)
Definition rewire (k x y : nat) (t : list (list nat)) : option (list (list nat)) :=
  match nth_error t k with
  | None => None
  | Some l => match remove_first x l with None => None | Some r => Some (set_nth k (r ++ [y]) t) end
  end.

(** topology.py:38-63 for island i of the incomplete row; sets are lists of their elements. *)
Definition leftover (w N last_width i : nat) (t : list (list nat)) : option (list (list nat)) :=
  let row := i / w in
  let ring := [(i - N + last_width - 1) mod last_width + row * w; (i - N + 1) mod last_width + row * w] in
  if w <? length t then
    let last := i - w in
    let first := i mod w in
    match rewire last first i t with
    | None => None
    | Some t1 =>
        match rewire first last i t1 with
        | None => None
        | Some t2 => Some (t2 ++ [first :: last :: ring])
        end
    end
  else Some (t ++ [ring]).

(** topology.py:38-63: the incomplete row. *)
Fixpoint leftovers (w N last_width : nat) (is : list nat) (t : list (list nat)) : option (list (list nat)) :=
  match is with
  | [] => Some t
  | i :: is' => match leftover w N last_width i t with None => None | Some t' => leftovers w N last_width is' t' end
  end.

(** topology.py:20-68; the sets of line 68 are given as lists, in any order and with repetitions.
    None: an exception (ZeroDivisionError for width 0, ValueError of remove, KeyError of line 66). *)
Definition torus (w size : nat) : option (list (list nat)) :=
  if w =? 0 then None
  else
    let N := w * (size / w) in
    let t := map (full_row w N) (seq 0 N) in
    if N <? size then
      let last_width := size - N in
      match leftovers w N last_width (seq N (size - N)) t with
      | None => None
      | Some t1 =>
          if last_width =? 1 then
            match nth_error t1 N with
            | None => None
            | Some l => if existsb (Nat.eqb N) l then Some (set_nth N (filter (fun x => negb (x =? N)) l) t1) else None
            end
          else Some t1
      end
    else Some t.

(** ---- random_tools.py:6-17 ---- *)
Definition total_weight {A} (choices : list (A * Q)) : Q := fold_left (fun s cw => (s + snd cw)%Q) choices 0%Q.
(** Lines 11-15; None = the assertion of line 17. *)
Fixpoint choice_loop {A} (r upto : Q) (choices : list (A * Q)) : option A :=
  match choices with
  | [] => None
  | (c, w) :: rest => if negb (Qle_bool (upto + w) r) then Some c else choice_loop r (upto + w)%Q rest
  end.
(** [r]: the value of random.uniform(0, total). random_tools.py:6-17. *)
Definition weighted_choice {A} (r : Q) (choices : list (A * Q)) : option A := choice_loop r 0%Q choices.

(** ---- migration ---- *)
(** list.remove on vectors, which compares contents. IMGA.py:164. *)
Fixpoint remove_vec (x : vec) (l : list vec) : option (list vec) :=
  match l with
  | [] => None
  | y :: l' => if vec_eqb x y then Some l' else match remove_vec x l' with Some r => Some (y :: r) | None => None end
  end.

(** IMGA.py:148-163, one emigrant: [u] in [0,1) gives uniform(0, total) = u * total, [k] the random.choice. *)
Definition pick_refugee (f : vec -> vec) (u : Q) (k : nat) (current : list vec) : option (vec * list vec) :=
  match paretofront_layers f current with
  | None => None
  | Some layers =>
      let choices := combine layers (map (fun i => (1 / inject_Z (Z.of_nat (i + 1)))%Q) (seq 0 (length layers))) in
      match weighted_choice (u * total_weight choices)%Q choices with
      | None => None
      | Some layer =>
          match layer with
          | [] => None
          | _ :: _ =>
              match nth_error layer (k mod length layer) with
              | None => None
              | Some refugee =>
                  match remove_vec refugee current with
                  | None => None
                  | Some current' => Some (refugee, current')
                  end
              end
          end
      end
  end.
(** IMGA.py:148-164: the loop over migrants_number. *)
Fixpoint pick_refugees (f : vec -> vec) (draws : list (Q * nat)) (current : list vec) : option (list vec) :=
  match draws with
  | [] => Some []
  | (u, k) :: draws' =>
      match pick_refugee f u k current with
      | None => None
      | Some (refugee, current') =>
          match pick_refugees f draws' current' with None => None | Some r => Some (refugee :: r) end
      end
  end.

(** What migration touches of an island: the driver's individuals, visa_office, all_refugees.
    IMGA.py:114-130. *)
Record island (ind : Type) := { isl_inds : list ind; visa_office : list ind; all_refugees : list vec }.
Arguments isl_inds {ind}. Arguments visa_office {ind}. Arguments all_refugees {ind}.

Section Migration.
  (** The individuals of the islands' drivers, their vectors (p.v, p.value or p["value"]), and what the message adapter's
      immigrate() does to each newcomer: nothing, but for OMOPSO's reset_speed() (OMOPSO/message.py:10-13). *)
  Context {ind : Type}.
  Variable value : ind -> vec.
  Variable admit : ind -> ind.

  (** IMGA/message.py:19-30, SPEA2/message.py:13-24, SMSEMOA/message.py:15-26, OMOPSO/message.py:15-26: (to_remove, the
      individuals left).  Individuals are compared by identity in remove(), so exactly the ones put on the list go; SPEA2's
      are dictionaries, compared by contents, but an equal one further ahead has the same vector and was put on the list first. *)
  Fixpoint take_out (wanted : list vec) (inds : list ind) : list ind * list ind :=
    match inds with
    | [] => ([], [])
    | p :: inds' =>
        match remove_vec (value p) wanted with
        | Some wanted' => let '(out, kept) := take_out wanted' inds' in (p :: out, kept)
        | None => let '(out, kept) := take_out wanted inds' in (out, p :: kept)
        end
    end.

  (** IMGA.py:139-169 *)
  Definition emigrate (f : vec -> vec) (draws : list (Q * nat)) (s : island ind) : option (list ind * island ind) :=
    match pick_refugees f draws (map value (isl_inds s)) with
    | None => None
    | Some refugees =>
        let '(out, kept) := take_out refugees (isl_inds s) in
        Some (out, {| isl_inds := kept; visa_office := visa_office s; all_refugees := all_refugees s ++ refugees |})
    end.
  (** IMGA.py:171-172 *)
  Definition immigrate (migrants : list ind) (s : island ind) : island ind :=
    {| isl_inds := isl_inds s; visa_office := visa_office s ++ migrants; all_refugees := all_refugees s |}.
  (** IMGA.py:174-187 with IMGA/message.py:16-17, SPEA2/message.py:10-11, SMSEMOA/message.py:11-13, OMOPSO/message.py:10-13 *)
  Definition assimilate (s : island ind) : option (island ind) :=
    if length (visa_office s) =? length (all_refugees s)
    then Some {| isl_inds := isl_inds s ++ map admit (visa_office s); visa_office := []; all_refugees := [] |}
    else None.

  (** IMGA.py:89-90, the pairs (i, n); [draws i n]: the draws of that call of emigrate(). *)
  Fixpoint send_all (f : vec -> vec) (draws : nat -> nat -> list (Q * nat)) (edges : list (nat * nat)) (islands : list (island ind))
    : option (list (island ind)) :=
    match edges with
    | [] => Some islands
    | (i, n) :: edges' =>
        match nth_error islands i with
        | None => None
        | Some src =>
            match emigrate f (draws i n) src with
            | None => None
            | Some (migrants, src') =>
                let islands1 := set_nth i src' islands in
                match nth_error islands1 n with
                | None => None
                | Some dst => send_all f draws edges' (set_nth n (immigrate migrants dst) islands1)
                end
            end
        end
    end.
  (** IMGA.py:91-92. *)
  Fixpoint assimilate_all (islands : list (island ind)) : option (list (island ind)) :=
    match islands with
    | [] => Some []
    | s :: rest =>
        match assimilate s, assimilate_all rest with
        | Some s', Some rest' => Some (s' :: rest')
        | _, _ => None
        end
    end.
  (** IMGA.py:86-90: all pairs in order; [topology]: the sets, each in its iteration order. *)
  Definition edges_of (topology : list (list nat)) (count : nat) : list (nat * nat) :=
    concat (map (fun i => map (pair i) (nth i topology [])) (seq 0 count)).
  (** IMGA.py:85-92; [topology[i]] raises IndexError when there are fewer sets than islands. *)
  Definition migration (f : vec -> vec) (topology : list (list nat)) (draws : nat -> nat -> list (Q * nat)) (islands : list (island ind))
    : option (list (island ind)) :=
    if length topology <? length islands then None
    else
      match send_all f draws (edges_of topology (length islands)) islands with
      | None => None
      | Some islands' => assimilate_all islands'
      end.
End Migration.
