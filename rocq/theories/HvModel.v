(** Model of the hypervolume computation.  Source: algorithms/base/hv.py
    (metrics/hv.py-style users call HyperVolume(ref).compute(front)).

    Heap: nodes are numbers, 0 is the sentinel, node i+1 holds the i-th relevant point.
    Arrays indexed by dimension are functions on [nat].  [None] is an exception (indexing the
    sentinel's cargo, which is None, or a vector that is too short) or an exhausted loop bound;
    the property theorems exclude both by stating the value returned. *)
From Verif Require Import Spec SortModel.
Local Open Scope Z_scope.

(** hv.py:186-210: the nodes' next, prev, ignore, area and volume, and the list bounds. *)
Record heap := {
  nx : nat -> nat -> nat;      (* nx i p = p.next[i] *)
  pv : nat -> nat -> nat;      (* pv i p = p.prev[i] *)
  ign : nat -> nat;            (* p.ignore *)
  area : nat -> nat -> Z;      (* area i p = p.area[i] *)
  vol : nat -> nat -> Z;       (* vol i p = p.volume[i] *)
  bnd : nat -> Z               (* bounds[i]; one list shared by all calls *)
}.

(** assignment to one entry of a list (e.g. hv.py:109, 279-280). *)
Definition fupd {B} (m : nat -> B) (k : nat) (v : B) : nat -> B :=
  fun i => if (i =? k)%nat then v else m i.
(** assignment to p.next[i] and the like (e.g. hv.py:254-258). *)
Definition fupd2 {B} (m : nat -> nat -> B) (i k : nat) (v : B) : nat -> nat -> B :=
  fun j p => if (j =? i)%nat && (p =? k)%nat then v else m j p.

(** p.next[i] = v (hv.py:254-258, 264-266, 277-280). *)
Definition set_nx (h : heap) i p v :=
  {| nx := fupd2 (nx h) i p v; pv := pv h; ign := ign h; area := area h; vol := vol h; bnd := bnd h |}.
(** p.prev[i] = v (hv.py:254-258, 264-266, 277-280). *)
Definition set_pv (h : heap) i p v :=
  {| nx := nx h; pv := fupd2 (pv h) i p v; ign := ign h; area := area h; vol := vol h; bnd := bnd h |}.
(** p.ignore = v (hv.py:106-110, 134-138). *)
Definition set_ign (h : heap) p v :=
  {| nx := nx h; pv := pv h; ign := fupd (ign h) p v; area := area h; vol := vol h; bnd := bnd h |}.
(** p.area[i] = v (hv.py:128-138). *)
Definition set_area (h : heap) i p v :=
  {| nx := nx h; pv := pv h; ign := ign h; area := fupd2 (area h) i p v; vol := vol h; bnd := bnd h |}.
(** p.volume[i] = v (hv.py:120-155). *)
Definition set_vol (h : heap) i p v :=
  {| nx := nx h; pv := pv h; ign := ign h; area := area h; vol := fupd2 (vol h) i p v; bnd := bnd h |}.
(** bounds[i] = v (hv.py:267-268, 281-282). *)
Definition set_bnd (h : heap) i v :=
  {| nx := nx h; pv := pv h; ign := ign h; area := area h; vol := vol h; bnd := fupd (bnd h) i v |}.

Section Computation.
  (** The (shifted) relevant points. *)
  Variable pts : list vec.

  (** p.cargo: None for the sentinel. hv.py:186-199. *)
  Definition cargo (p : nat) : option vec :=
    match p with O => None | S i => nth_error pts i end.
  (** p.cargo[i]. hv.py:186-199. *)
  Definition cg (p i : nat) : option Z :=
    match cargo p with None => None | Some v => nth_error v i end.

  (** hv.py:267-268, 281-282: bounds[i] = min(bounds[i], node.cargo[i]) *)
  Definition lower_bound (h : heap) (node i : nat) : option heap :=
    match cg node i with
    | None => None
    | Some c => Some (if c <? bnd h i then set_bnd h i c else h)
    end.

  (** hv.py:260-269: the body of remove for list i. *)
  Definition remove1 (h : heap) (node i : nat) : option heap :=
    let predecessor := pv h i node in
    let successor := nx h i node in
    lower_bound (set_pv (set_nx h i predecessor successor) i successor predecessor) node i.

  (** hv.py:271-282: the body of reinsert for list i. *)
  Definition reinsert1 (h : heap) (node i : nat) : option heap :=
    let h1 := set_nx h i (pv h i node) node in
    let h2 := set_pv h1 i (nx h1 i node) node in
    lower_bound h2 node i.

  (** for i in range(k), whose body may raise (hv.py:262, 275). *)
  Fixpoint for_range (k : nat) (f : heap -> nat -> option heap) (h : heap) : option heap :=
    match k with
    | O => Some h
    | S k' => match for_range k' f h with Some h' => f h' k' | None => None end
    end.

  (** hv.py:260-269. *)
  Definition remove (node index : nat) (h : heap) : option heap :=
    for_range index (fun h i => remove1 h node i) h.
  (** hv.py:271-282. *)
  Definition reinsert (node index : nat) (h : heap) : option heap :=
    for_range index (fun h i => reinsert1 h node i) h.

  (** hv.py:249-258 *)
  Definition append (h : heap) (i node : nat) : heap :=
    let lastButOne := pv h i 0%nat in
    let h1 := set_nx h i node 0%nat in
    let h2 := set_pv h1 i node lastButOne in
    let h3 := set_pv h2 i 0%nat node in
    set_nx h3 i lastButOne node.
  (** hv.py:249-258. *)
  Definition extend (h : heap) (i : nat) (nodes : list nat) : heap :=
    fold_left (fun h node => append h i node) nodes h.

  (** hv.py:167-175: the tuples (cargo[i], node) are compared on the first component; on a tie
      Node.__eq__ (198-199) makes the nodes equal, so the sort is stable. *)
  Definition coord (i p : nat) : Z := match cg p i with Some c => c | None => 0 end.
  (** hv.py:167-175. *)
  Definition sort_by_dimension (i : nat) (nodes : list nat) : list nat :=
    stable_sort (fun a b => coord i a <=? coord i b) nodes.

  (** hv.py:186-210: fresh nodes; all links of the sentinel point to itself (links of other
      nodes start as None and are set by extend before use).  -1.0e308 is [neg]. *)
  Definition empty_heap (neg : Z) : heap :=
    {| nx := fun _ _ => 0%nat; pv := fun _ _ => 0%nat; ign := fun _ => 0%nat;
       area := fun _ _ => 0; vol := fun _ _ => 0; bnd := fun _ => neg |}.

  (** hv.py:157-165: the node list stays sorted by the previous dimension when it is sorted by
      the next one. *)
  Fixpoint pre_process (dims : nat) (h : heap) : list nat * heap :=
    match dims with
    | O => (seq 1 (length pts), h)
    | S d =>
        let '(nodes, h') := pre_process d h in
        let nodes' := sort_by_dimension d nodes in
        (nodes', extend h' d nodes')
    end.

  (** hv.py:88-100: two dimensions; [fuel] bounds the walk over the list. *)
  Fixpoint sweep2 (fuel : nat) (h : heap) (hvol hh : Z) (q p : nat) : option Z :=
    match p with
    | O => match cg q 1 with Some c => Some (hvol + hh * c) | None => None end
    | _ =>
        match fuel with
        | O => None
        | S fuel' =>
            match cg q 1, cg p 1, cg p 0 with
            | Some q1, Some p1, Some p0 =>
                sweep2 fuel' h (hvol + hh * (q1 - p1)) (if p0 <? hh then p0 else hh) p (nx h 1 p)
            | _, _, _ => None
            end
        end
    end.

  (** hv.py:106-110: reset ignore flags walking backwards to the sentinel. *)
  Fixpoint reset_ignore (fuel d : nat) (h : heap) (q : nat) : option heap :=
    match cargo q with
    | None => Some h
    | Some _ =>
        match fuel with
        | O => None
        | S fuel' =>
            let h' := if (ign h q <? d)%nat then set_ign h q 0%nat else h in
            reset_ignore fuel' d h' (pv h' d q)
        end
    end.

  (** hv.py:111-119: remove nodes from the end until the caches are valid.  Returns p, q, length. *)
  Fixpoint remove_loop (fuel d : nat) (h : heap) (p q len : nat) : option (heap * nat * nat * nat) :=
    if (len <=? 1)%nat then Some (h, p, q, len)
    else
      match cg q d with
      | None => None
      | Some qc =>
          let go_on :=
            if bnd h d <? qc then Some true
            else match cg (pv h d q) d with
                 | None => None
                 | Some c => Some (bnd h d <=? c)
                 end in
          match go_on with
          | None => None
          | Some false => Some (h, p, q, len)
          | Some true =>
              match fuel with
              | O => None
              | S fuel' =>
                  match remove q d h with
                  | None => None
                  | Some h' => remove_loop fuel' d h' q (pv h' d q) (len - 1)
                  end
              end
          end
      end.

  (** hv.py:128-131: qArea[0] = 1; qArea[1:d+1] = [qArea[i] * -qCargo[i] for i in range(d)];
      the right-hand side is built from the old entries before any is overwritten. *)
  Definition init_area (d q : nat) (h : heap) : heap :=
    let old := fun i => if (i =? 0)%nat then 1 else area h i q in
    fold_left (fun g i => set_area g (S i) q (old i * - coord i q)) (seq 0 d) (set_area h 0 q 1).

  (** hv.py:133-138 and 148-153: area[dimIndex] of q, by inheritance or by recursion. *)
  Definition compute_area (rec : nat -> heap -> option (Z * heap)) (d len q : nat) (h : heap)
    : option heap :=
    if (d <=? ign h q)%nat then Some (set_area h d q (area h d (pv h d q)))
    else
      match rec len h with
      | None => None
      | Some (a, h1) =>
          let h2 := set_area h1 d q a in
          Some (if area h2 d q <=? area h2 d (pv h2 d q) then set_ign h2 q d else h2)
      end.

  (** hv.py:139-155: reinsert the removed nodes one by one. *)
  Fixpoint sweep_loop (rec : nat -> heap -> option (Z * heap)) (fuel d : nat) (h : heap)
           (hvol : Z) (q p len : nat) : option (Z * heap) :=
    match p with
    | O => match cg q d with Some c => Some (hvol - area h d q * c, h) | None => None end
    | _ =>
        match fuel with
        | O => None
        | S fuel' =>
            match cg p d, cg q d with
            | Some pc, Some qc =>
                let hvol' := hvol + area h d q * (pc - qc) in
                match reinsert p d (set_bnd h d pc) with
                | None => None
                | Some h1 =>
                    let q' := p in
                    let p' := nx h1 d p in
                    match compute_area rec d (S len) q' (set_vol h1 d q' hvol') with
                    | None => None
                    | Some h2 => sweep_loop rec fuel' d h2 hvol' q' p' (S len)
                    end
                end
            | _, _ => None
            end
        end
    end.

  (** hv.py:72-155; structural recursion on dimIndex. *)
  Fixpoint hv_recursive (dimIndex : nat) (len : nat) (h : heap) : option (Z * heap) :=
    match len with
    | O => Some (0, h)
    | _ =>
        match dimIndex with
        | O => match cg (nx h 0 0) 0 with Some c => Some (- c, h) | None => None end
        | 1%nat =>
            let q := nx h 1 0 in
            match cg q 0 with
            | None => None
            | Some h0 =>
                match sweep2 (length pts) h 0 h0 q (nx h 1 q) with
                | Some v => Some (v, h)
                | None => None
                end
            end
        | S d' =>
            let d := dimIndex in
            match reset_ignore (length pts) d h (pv h d 0) with
            | None => None
            | Some h1 =>
                match remove_loop (length pts) d h1 0 (pv h1 d 0) len with
                | None => None
                | Some (h2, p, q, len2) =>
                    let qp := pv h2 d q in
                    let start :=
                      if (1 <? len2)%nat then
                        match cg q d, cg qp d with
                        | Some qc, Some qpc => Some (vol h2 d qp + area h2 d qp * (qc - qpc), h2)
                        | _, _ => None
                        end
                      else Some (0, init_area d q h2) in
                    match start with
                    | None => None
                    | Some (hvol, h3) =>
                        match compute_area (hv_recursive d') d len2 q (set_vol h3 d q hvol) with
                        | None => None
                        | Some h4 => sweep_loop (hv_recursive d') (length pts) d h4 hvol q p len2
                        end
                    end
                end
            end
        end
    end.
End Computation.

(** hv.py:45-49; None = IndexError when the point has more coordinates than the reference. *)
Fixpoint weakly_dominates (point other : vec) : option bool :=
  match point with
  | [] => Some true
  | a :: point' =>
      match other with
      | [] => None
      | b :: other' => if b <? a then Some false else weakly_dominates point' other'
      end
  end.

(** hv.py:51-57 *)
Fixpoint relevant_points (ref : vec) (front : list vec) : option (list vec) :=
  match front with
  | [] => Some []
  | p :: front' =>
      match weakly_dominates p ref, relevant_points ref front' with
      | Some b, Some r => Some (if b then p :: r else r)
      | _, _ => None
      end
  end.

(** hv.py:62-65; None = IndexError when the point is too short. *)
Fixpoint shift (ref p : vec) : option vec :=
  match ref with
  | [] => Some []
  | r :: ref' =>
      match p with
      | [] => None
      | a :: p' => match shift ref' p' with Some s => Some (a - r :: s) | None => None end
      end
  end.

(** hv.py:62-65. *)
Fixpoint shift_all (ref : vec) (ps : list vec) : option (list vec) :=
  match ps with
  | [] => Some []
  | p :: ps' =>
      match shift ref p, shift_all ref ps' with
      | Some s, Some r => Some (s :: r)
      | _, _ => None
      end
  end.

(** hv.py:37-70; [neg] is -1.0e308 in the grid's unit.  dimensions - 1 is -1 for an empty
    reference point: hvRecursive(-1, ...) would index list -1; not modelled (None). *)
Definition compute (neg : Z) (ref : vec) (front : list vec) : option Z :=
  match relevant_points ref front with
  | None => None
  | Some rel =>
      match (if existsb (fun r => negb (r =? 0)) ref then shift_all ref rel else Some rel) with
      | None => None
      | Some pts =>
          match length ref with
          | O => None
          | S d =>
              let '(_, h) := pre_process pts (S d) (empty_heap neg) in
              match hv_recursive pts d (length pts) h with
              | Some (v, _) => Some v
              | None => None
              end
          end
      end
  end.

(** Usage of MultiList (hv.py:201-282) by a caller: remove the nodes xs in this order, or reinsert
    them in this order, in all lists below d. *)
Fixpoint remove_all (pts : list vec) (d : nat) (xs : list nat) (h : heap) : option heap :=
  match xs with
  | [] => Some h
  | x :: xs' => match remove pts x d h with Some h' => remove_all pts d xs' h' | None => None end
  end.
(** hv.py:271-282: reinserting them one by one. *)
Fixpoint reinsert_all (pts : list vec) (d : nat) (xs : list nat) (h : heap) : option heap :=
  match xs with
  | [] => Some h
  | x :: xs' => match reinsert pts x d h with Some h' => reinsert_all pts d xs' h' | None => None end
  end.
