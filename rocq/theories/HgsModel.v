(** Model of classic HGS.  Source: algorithms/HGS/classic/ClassicHGS.py.
    Nodes are identified by their position in self.nodes (creation order). *)
From Verif Require Import Spec VarModel.
From Coq Require Import QArith Qabs.
Local Open Scope nat_scope.

(** The outcome of a call: a result, an exception, or (never, see C53) recursion deeper than the fuel.
    ClassicHGS.py:92-125, 299-349. *)
Inductive outcome (A : Type) := Ok (a : A) | Raises | NoFuel.
Arguments Ok {A}. Arguments Raises {A}. Arguments NoFuel {A}.
(** an exception ends the call (ClassicHGS.py:92-125). *)
Definition bind {A B} (x : outcome A) (k : A -> outcome B) : outcome B :=
  match x with Ok a => k a | Raises => Raises | NoFuel => NoFuel end.
Notation "'do' x <- e ; k" := (bind e (fun x => k)) (at level 200, x pattern, e at level 100, k at level 200).
(** l[i] for a per-level list, IndexError beyond its end (e.g. ClassicHGS.py:149-150). *)
Definition get {A} (l : list A) (i : nat) : outcome A := match nth_error l i with Some x => Ok x | None => Raises end.
(** a call to the node's driver that may raise (ClassicHGS.py:234-297). *)
Definition of_option {A} (o : option A) : outcome A := match o with Some x => Ok x | None => Raises end.
(** a for loop whose body may raise (ClassicHGS.py:92-125). *)
Fixpoint fold_ok {A S} (f : S -> A -> outcome S) (l : list A) (s : S) : outcome S :=
  match l with [] => Ok s | x :: l' => do s' <- f s x; fold_ok f l' s' end.

(** np.mean(population, axis=0), exactly; the mean of no vectors is nan.  Vectors have the same length.
    ClassicHGS.py:171, 183, 360-361. *)
Inductive centre := Missing | Nan | At (c : list Q).
(** ClassicHGS.py:360-361: the sum inside np.mean. *)
Fixpoint vsum (n : nat) (vs : list vec) : vec :=
  match vs with [] => repeat 0%Z n | v :: vs' => map (fun p => (fst p + snd p)%Z) (combine v (vsum n vs')) end.
(** ClassicHGS.py:171, 183, 360-361: np.mean(population, axis=0). *)
Definition mean (vs : list vec) : centre :=
  match vs with
  | [] => Nan
  | v :: _ => At (map (fun x => inject_Z x / inject_Z (Z.of_nat (length vs)))%Q (vsum (length v) vs))
  end.

(** The square of np.linalg.norm(a - b). ClassicHGS.py:363. *)
Definition dist2 (a b : list Q) : Q :=
  fold_right Qplus 0%Q (map (fun p => (fst p - snd p) * (fst p - snd p))%Q (combine a b)).
(** ClassicHGS.py:359-364 on two single points: dist < min_dist; false when one is nan. *)
Definition close (a b : list Q) (min_dist : Q) : bool :=
  negb (Qle_bool min_dist 0) && negb (Qle_bool (min_dist * min_dist) (dist2 a b)).
(** ClassicHGS.py:359-364: comparing with nan gives False. *)
Definition redundant (a b : centre) (min_dist : Q) : outcome bool :=
  match a, b with
  | Missing, _ | _, Missing => Raises
  | At x, At y => Ok (close x y min_dist)
  | _, _ => Ok false
  end.

(** random.shuffle: for i from the end down to 1 swap positions i and randbelow(i + 1).
    ClassicHGS.py:282. *)
Definition swap {A} (i j : nat) (l : list A) : list A :=
  match nth_error l i, nth_error l j with Some x, Some y => set_nth i y (set_nth j x l) | _, _ => l end.
(** ClassicHGS.py:282: the loop of random.shuffle. *)
Fixpoint shuffle_from {A} (draws : nat -> nat) (i : nat) (l : list A) : list A :=
  match i with 0 => l | S i' => shuffle_from draws i' (swap i (draws i mod S i) l) end.
(** ClassicHGS.py:282. *)
Definition shuffle {A} (draws : nat -> nat) (l : list A) : list A := shuffle_from draws (length l - 1) l.

(** random.sample: k picks without replacement; ValueError when k exceeds the population.
    ClassicHGS.py:79. *)
Fixpoint sample {A} (draws : nat -> nat) (k : nat) (l : list A) : outcome (list A) :=
  match k with
  | 0 => Ok []
  | S k' =>
      if length l =? 0 then Raises
      else let j := draws k mod length l in
           do x <- get l j; do rest <- sample draws k' (firstn j l ++ skipn (S j) l); Ok (x :: rest)
  end.

Section Hgs.
  (** The nodes' driver: the constructor (with the level it is for and what it draws), one next_step(), cost,
      finalized_population(), and the delegates its message adapter nominates.  What a driver reads besides its own
      state (random numbers, blurred fitnesses, the fitness archive shared by the nodes of a level,
      ClassicHGS.py:74, 212-225, 234-247) comes in through its draws, so it is arbitrary. *)
  Variables drv draw : Type.
  Variable dnew : nat -> draw -> list vec -> option drv.
  Variable dstep : draw -> drv -> option drv.
  Variable dcost : drv -> Z.
  Variable dfinal : draw -> drv -> option (drv * list vec).
  Variable ddelegates : drv -> option (list vec).
  (** HyperVolume(reference_point).compute of the population's fitnesses (290-297). *)
  Variable hv_of : list vec -> Q.
  (** drivertools.mutate's perturbation, and np.finfo(float).eps *)
  Variable raw : Z -> Z -> Z -> Z -> Z.
  Variable EPSILON : Q.

  (** Constructor arguments, 22-60; min_dists as computed at 54-57. *)
  Record config := {
    dims : box;
    cost_modifiers : list Q;
    min_dists : list Q;
    metaepoch_lens : list nat;
    max_level : nat;
    max_sprouts_no : nat;
    sproutiveness : nat;
    population_sizes : list nat;
    mutation_rates : list Z
  }.
  Variable C : config.

  (** ClassicHGS.py:228-259 *)
  Record node := {
    alive : bool;
    ripe : bool;
    level : nat;
    current_cost : Z;
    driver : drv;
    population : list vec;
    sprouts : list nat;
    delegates : list vec;
    center : centre;                    (* Missing: the attribute is not there yet *)
    relative_hypervolume : option Q;
    old_hypervolume : option Q;         (* None: -inf *)
    hypervolume : option Q
  }.

  (** ClassicHGS.py:61-84 *)
  Record hgs := { nodes : list node; level_nodes : list (list nat); hcost : Q; min_progress_ratio : list Q }.

  (** The randomness of one step; nodes are named by position, also those about to be created.
      ClassicHGS.py:261-297, 352-356. *)
  Record step_draws := {
    in_metaepoch : nat -> nat -> draw;     (* node, step *)
    in_finish : nat -> draw;               (* node *)
    in_shuffle : nat -> nat -> nat;        (* node, position *)
    in_constructor : nat -> draw;          (* new node *)
    in_mutation : nat -> nat -> (nat -> Z) * (nat -> Z)  (* new node, individual *)
  }.

  (** ClassicHGS.py:261-297: an assignment to attributes of node i. *)
  Definition set_node (i : nat) (n : node) (s : hgs) : hgs :=
    {| nodes := set_nth i n (nodes s); level_nodes := level_nodes s; hcost := hcost s; min_progress_ratio := min_progress_ratio s |}.
  (** ClassicHGS.py:170-172, 192: alive and ripe. *)
  Definition with_flags (n : node) (a r : bool) : node :=
    {| alive := a; ripe := r; level := level n; current_cost := current_cost n; driver := driver n; population := population n;
       sprouts := sprouts n; delegates := delegates n; center := center n; relative_hypervolume := relative_hypervolume n;
       old_hypervolume := old_hypervolume n; hypervolume := hypervolume n |}.
  (** ClassicHGS.py:171, 183: node.center = np.mean(node.population, axis=0). *)
  Definition with_center (n : node) : node :=
    {| alive := alive n; ripe := ripe n; level := level n; current_cost := current_cost n; driver := driver n; population := population n;
       sprouts := sprouts n; delegates := delegates n; center := mean (population n); relative_hypervolume := relative_hypervolume n;
       old_hypervolume := old_hypervolume n; hypervolume := hypervolume n |}.

  (** ClassicHGS.py:228-259: a new node *)
  Definition new_node (lv : nat) (d : draw) (pop : list vec) : outcome node :=
    do dr <- of_option (dnew lv d pop);
    do _ <- get (metaepoch_lens C) lv;
    Ok {| alive := true; ripe := false; level := lv; current_cost := 0; driver := dr; population := []; sprouts := []; delegates := [];
          center := Missing; relative_hypervolume := None; old_hypervolume := None; hypervolume := None |}.

  (** ClassicHGS.py:76-84 *)
  Definition hgs_init (sampling : nat -> nat) (d : draw) (mpr : list Q) (pop : list vec) : outcome hgs :=
    do size <- get (population_sizes C) 0;
    do chosen <- sample sampling size pop;
    do root <- new_node 0 d chosen;
    Ok {| nodes := [root]; level_nodes := [[0]; []; []]; hcost := 0; min_progress_ratio := mpr |}.

  (** driver.py:79-80 with ClassicHGS.py:271-277: the steps of one metaepoch; the messages' epoch_cost. *)
  Fixpoint run_steps (ds : list draw) (d : drv) (cur : Z) : outcome (drv * Z * list Z) :=
    match ds with
    | [] => Ok (d, cur, [])
    | x :: ds' =>
        do d' <- of_option (dstep x d);
        do (r, costs) <- run_steps ds' d' (dcost d');
        Ok (r, (dcost d' - cur)%Z :: costs)
    end.

  (** ClassicHGS.py:261-297: the job of one node; gives the node afterwards and the costs in its messages. *)
  Definition node_metaepoch (D : step_draws) (i : nat) (n : node) : outcome (node * list Z) :=
    if alive n then
      do len <- get (metaepoch_lens C) (level n);
      do (d, cur, costs) <- run_steps (map (in_metaepoch D i) (seq 0 len)) (driver n) (current_cost n);
      do (d', pop) <- of_option (dfinal (in_finish D i) d);
      do del <- of_option (ddelegates d');
      let v := hv_of pop in
      Ok ({| alive := true; ripe := ripe n; level := level n; current_cost := cur; driver := d'; population := pop; sprouts := sprouts n;
             delegates := shuffle (in_shuffle D i) del; center := center n;
             relative_hypervolume := match relative_hypervolume n with None => Some v | Some r => Some r end;
             old_hypervolume := hypervolume n;
             hypervolume := match relative_hypervolume n with None => hypervolume n | Some r => Some (v - r)%Q end |}, costs)
    else Ok (n, []).

  (** ClassicHGS.py:146: sum(node_costs). *)
  Definition Qsum (l : list Q) : Q := fold_left Qplus l 0%Q.

  (** ClassicHGS.py:138-146 for one job, with 149-150; the jobs run one after the other (each is waited for). *)
  Definition metaepoch_job (D : step_draws) (st : hgs * list Q) (i : nat) : outcome (hgs * list Q) :=
    let '(s, node_costs) := st in
    do n <- get (nodes s) i;
    do (n', costs) <- node_metaepoch D i n;
    do weighted <- fold_ok (fun acc c => do m <- get (cost_modifiers C) (level n); Ok (acc ++ [(m * inject_Z c)%Q])) costs [];
    Ok (set_node i n' s, node_costs ++ [Qsum weighted]).
  (** ClassicHGS.py:127-146 *)
  Definition run_metaepoch (D : step_draws) (s : hgs) : outcome hgs :=
    do l2 <- get (level_nodes s) 2; do l1 <- get (level_nodes s) 1; do l0 <- get (level_nodes s) 0;
    do (s', node_costs) <- fold_ok (metaepoch_job D) (l2 ++ l1 ++ l0) (s, []);
    Ok {| nodes := nodes s'; level_nodes := level_nodes s'; hcost := (hcost s' + Qsum node_costs)%Q; min_progress_ratio := min_progress_ratio s' |}.

  (** ClassicHGS.py:312: node.alive. *)
  Definition alive_in (s : hgs) (i : nat) : bool := match nth_error (nodes s) i with Some n => alive n | None => false end.

  (** ClassicHGS.py:163-168; hypervolume is -inf only while old_hypervolume is. *)
  Definition not_progressing (mpr : list Q) (n : node) : outcome bool :=
    match old_hypervolume n with
    | None => Ok false
    | Some old =>
        if negb (Qle_bool old 0) then
          do p <- get mpr (level n);
          match hypervolume n with
          | None => Ok true
          | Some h => Ok (negb (Qle_bool (p / inject_Z (2 ^ Z.of_nat (level n))) (h / (old + EPSILON) - 1)))
          end
        else Ok false
    end.
  (** ClassicHGS.py:161-174 *)
  Definition trim_not_progressing (ids : list nat) (s : hgs) : outcome hgs :=
    fold_ok (fun s i =>
      do n <- get (nodes s) i;
      do bad <- not_progressing (min_progress_ratio s) n;
      Ok (if bad then set_node i (with_center (with_flags n false true)) s else s)) (filter (alive_in s) ids) s.

  (** ClassicHGS.py:184-194: compare one sprout to the others, one after the other. *)
  Fixpoint compare_to (others processed : list nat) (i : nat) (s : hgs) : outcome hgs :=
    match others with
    | [] => Ok s
    | j :: others' =>
        do n <- get (nodes s) i;
        do other <- get (nodes s) j;
        if negb (alive n) then Ok s
        else if ripe other || existsb (Nat.eqb j) processed then
          do md <- get (min_dists C) (level n);
          do r <- redundant (center other) (center n) md;
          compare_to others' processed i (if r then set_node i (with_flags n false (ripe n)) s else s)
        else compare_to others' processed i s
    end.
  (** ClassicHGS.py:180-195 *)
  Fixpoint trim_loop (live processed dead : list nat) (s : hgs) : outcome hgs :=
    match live with
    | [] => Ok s
    | i :: live' =>
        do n <- get (nodes s) i;
        do s' <- compare_to (dead ++ processed) processed i (set_node i (with_center n) s);
        trim_loop live' (processed ++ [i]) dead s'
    end.
  (** ClassicHGS.py:176-195 *)
  Definition trim_redundant (ids : list nat) (s : hgs) : outcome hgs :=
    trim_loop (filter (alive_in s) ids) [] (filter (fun i => negb (alive_in s i)) ids) s.

  (** ClassicHGS.py:157-159 *)
  Definition trim_all (s : hgs) (lv : nat) : outcome hgs :=
    do ids <- get (level_nodes s) lv;
    do s' <- trim_not_progressing ids s;
    trim_redundant ids s'.
  (** ClassicHGS.py:152-155 *)
  Definition trim_sprouts (s : hgs) : outcome hgs := fold_ok trim_all [2; 1; 0] s.

  (** ClassicHGS.py:352-356 *)
  Definition population_from_delegate (M : nat -> (nat -> Z) * (nat -> Z)) (delegate : vec) (size : nat) (rate : Z) : outcome (list vec) :=
    fold_ok (fun acc k => do v <- of_option (mutate raw (fst (M k)) (snd (M k)) rate delegate (dims C)); Ok (acc ++ [v]))
            (seq 0 (size - 1)) [delegate].

  (** ClassicHGS.py:310-314: how many sprouts are alive. *)
  Definition alive_sprouts (s : hgs) (n : node) : nat := length (filter (alive_in s) (sprouts n)).
  (** ClassicHGS.py:360-361 on a population of one delegate. *)
  Definition point (v : vec) : centre := At (map inject_Z v).

  (** ClassicHGS.py:320-333: is some explored centre of the next level close to the delegate?  All are compared. *)
  Definition candidate_redundant (s : hgs) (lv : nat) (delegate : vec) : outcome bool :=
    do ids <- get (level_nodes s) lv;
    fold_ok (fun acc j =>
      do other <- get (nodes s) j;
      if length (population other) =? 0 then Ok acc
      else do md <- get (min_dists C) lv; do r <- redundant (point delegate) (center other) md; Ok (acc || r)) ids false.

  (** ClassicHGS.py:342-345: self.sprouts.append. *)
  Definition add_sprout (n : node) (k : nat) : node :=
    {| alive := alive n; ripe := ripe n; level := level n; current_cost := current_cost n; driver := driver n; population := population n;
       sprouts := sprouts n ++ [k]; delegates := delegates n; center := center n; relative_hypervolume := relative_hypervolume n;
       old_hypervolume := old_hypervolume n; hypervolume := hypervolume n |}.

  (** ClassicHGS.py:310-349: the loop over the delegates of node i. *)
  Fixpoint release_loop (D : step_draws) (i : nat) (ds : list vec) (released : nat) (s : hgs) : outcome hgs :=
    match ds with
    | [] => Ok s
    | delegate :: ds' =>
        do n <- get (nodes s) i;
        if (sproutiveness C <=? released) || (max_sprouts_no C <=? alive_sprouts s n) then Ok s
        else
          let lv := S (level n) in
          do taken <- candidate_redundant s lv delegate;
          if taken then release_loop D i ds' released s
          else
            let k := length (nodes s) in
            do size <- get (population_sizes C) lv;
            do rate <- get (mutation_rates C) lv;
            do pop <- population_from_delegate (in_mutation D k) delegate size rate;
            do sprout <- new_node lv (in_constructor D k) pop;
            do ids <- get (level_nodes s) lv;
            release_loop D i ds' (S released)
              {| nodes := set_nth i (add_sprout n k) (nodes s) ++ [sprout];
                 level_nodes := set_nth lv (ids ++ [k]) (level_nodes s);
                 hcost := hcost s; min_progress_ratio := min_progress_ratio s |}
    end.

  (** ClassicHGS.py:299-349 for node i; the recursion follows sprouts, so levels bound its depth. *)
  Fixpoint release_new_sprouts (fuel : nat) (D : step_draws) (s : hgs) (i : nat) : outcome hgs :=
    match fuel with
    | 0 => NoFuel
    | S fuel' =>
        do n <- get (nodes s) i;
        if ripe n then
          do s' <- fold_ok (release_new_sprouts fuel' D) (sprouts n) s;
          do n' <- get (nodes s') i;
          if (level n' <? max_level C) && (alive_sprouts s' n' <? max_sprouts_no C)
          then release_loop D i (delegates n') 0 s' else Ok s'
        else Ok s
    end.

  (** ClassicHGS.py:206-207: x /= 2 on the first three entries *)
  Definition halve3 (l : list Q) : outcome (list Q) :=
    match l with a :: b :: c :: r => Ok ((a / 2)%Q :: (b / 2)%Q :: (c / 2)%Q :: r) | _ => Raises end.
  (** ClassicHGS.py:200-210 *)
  Definition revive_root (s : hgs) : outcome hgs :=
    if existsb alive (nodes s) then Ok s
    else do mpr <- halve3 (min_progress_ratio s);
         Ok {| nodes := map (fun n => if ripe n then with_flags n true false else n) (nodes s);
               level_nodes := level_nodes s; hcost := hcost s; min_progress_ratio := mpr |}.

  (** ClassicHGS.py:92-125 *)
  Definition hgs_step (s : hgs) (D : step_draws) : outcome hgs :=
    do s1 <- run_metaepoch D s;
    do s2 <- trim_sprouts s1;
    do s3 <- release_new_sprouts (4 + max_level C) D s2 0;
    revive_root s3.
  (** ClassicHGS.py:92-125, any number of steps. *)
  Definition hgs_run (Ds : list step_draws) (s : hgs) : outcome hgs := fold_ok hgs_step Ds s.

  (** ClassicHGS.py:86-90 *)
  Definition finalized_population (s : hgs) : list vec := fold_left (fun merged n => merged ++ population n) (nodes s) [].
End Hgs.

Arguments alive {drv}. Arguments ripe {drv}. Arguments level {drv}. Arguments current_cost {drv}. Arguments driver {drv}.
Arguments population {drv}. Arguments sprouts {drv}. Arguments delegates {drv}. Arguments center {drv}.
Arguments relative_hypervolume {drv}. Arguments old_hypervolume {drv}. Arguments hypervolume {drv}.
Arguments nodes {drv}. Arguments level_nodes {drv}. Arguments hcost {drv}. Arguments min_progress_ratio {drv}.
Arguments in_metaepoch {draw}. Arguments in_finish {draw}. Arguments in_shuffle {draw}. Arguments in_constructor {draw}. Arguments in_mutation {draw}.
