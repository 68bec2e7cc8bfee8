(** What the theorems about distributed HGS speak of: executions under every schedule, what the caller sees, the tree. *)
From Verif Require Import Spec VarModel HgsModel HgsSpec DhgsModel.
From Coq Require Import QArith Permutation.
Local Open Scope nat_scope.

Section DhgsSpec.
  Context {drv draw : Type}.
  Variable dnew : nat -> draw -> list vec -> drv.
  Variable dstep : draw -> drv -> drv.
  Variable dcost : drv -> Z.
  Variable dfinal : draw -> drv -> drv * list vec.
  Variable ddelegates : drv -> list vec.
  Variable hv_of : list vec -> Q.
  Variable EPSILON : Q.
  Variable C : config.
  Variable W : nat -> nat -> ndraws draw.
  Variable Wnew : nat -> draw.
  Notation system := (system drv).
  Notation node := (node drv).
  Notation deliver := (deliver drv draw dnew dstep dcost dfinal ddelegates hv_of EPSILON C W Wnew).

  (** Whatever is delivered next, as long as [P] does not hold [Q] does, no delivery raises, some message is still under way,
      and after finitely many deliveries [P] holds.  (All schedules; the induction is the termination.) *)
  Inductive until (Q P : system -> Prop) : system -> Prop :=
  | until_now c : P c -> until Q P c
  | until_later c : Q c -> (exists o, deliver c o) -> 
      (forall o, deliver c o -> exists c', o = Ok c') -> (forall c', deliver c (Ok c') -> until Q P c') -> until Q P c.

  (** Finitely many deliveries. *)
  Inductive runs (c : system) : system -> Prop :=
  | runs_none : runs c c
  | runs_more c1 c2 : runs c c1 -> deliver c1 (Ok c2) -> runs c c2.

  (** What the caller has been sent. *)
  Definition answers (c : system) : list message :=
    flat_map (fun t => match t with (_, Ext, m) => [m] | _ => [] end) (c_trace _ c).
  (** The nodes asked to release sprouts, in the order they were asked. *)
  Definition visited (c : system) : list nat :=
    flat_map (fun t => match t with (_, Nd i, m) => match m_body m with NReleaseSprouts _ => [i] | _ => [] end | _ => [] end) (c_trace _ c).

  (** Node [i] is [n], or is going to be once it has read the RESET in its mail. *)
  Definition node_is (c : system) (i : nat) (n : node) : Prop :=
    a_node _ (c_nodes _ c i) = Some n \/
    (a_node _ (c_nodes _ c i) = None /\ exists id lv pop, In (mk id (NReset lv pop)) (c_mail _ c Sup (Nd i)) /\ n = fresh_node drv draw dnew Wnew i lv pop).

  (** ask: the request [p] is posted and the system runs until the caller has its answer. *)
  Definition answered (k : nat) (p : payload) (c c' : system) : Prop :=
    runs (ask _ k p c) c' /\ length (answers c') = S (length (answers c)).

  (** The request [p] made in [c] raises nothing and is answered once: the caller gets one message, after which [P] holds, and nothing
      more is sent to it, whatever is delivered. *)
  Definition served (k : nat) (p : payload) (c : system) (P : payload -> system -> Prop) : Prop :=
    until (fun c' => answers c' = answers c)
      (fun c' => exists a, answers c' = answers c ++ [mk (Ext, k) a] /\ P a c' /\ forall c2, runs c' c2 -> answers c2 = answers c') (ask _ k p c).

  (** The life of a DistributedHGS: where its step() is (0: between steps; 1: metaepoch done; 2: stagnating nodes trimmed;
      3: redundant nodes trimmed; 4: sprouts released), while mail may still be delivered; and queries between steps. *)
  Inductive life : nat -> system -> Prop :=
  | life_start ratios pop : S (max_level C) <= length ratios -> life 0 (initial _ ratios pop)
  | life_mail pc c c' : life pc c -> deliver c (Ok c') -> life pc c'
  | life_population k c c' : life 0 c -> answered k HPopulation c c' -> life 0 c'
  | life_status k lv c c' : life 0 c -> answered k (HCheckStatus lv) c c' -> life 0 c'
  | life_metaepoch k c c' : life 0 c -> answered k HNewMetaepoch c c' -> life 1 c'
  | life_trim k c c' : life 1 c -> answered k HTrimNotProgressing c c' -> life 2 c'
  | life_redundant k c c' : life 2 c -> answered k HTrimRedundant c c' -> life 3 c'
  | life_release k c c' : life 3 c -> answered k HReleaseSprouts c c' -> life 4 c'
  | life_revive k c c' : life 4 c -> answered k HRevive c c' -> life 0 c'.

  (** The tree: nodes 0..n-1, each listed exactly once, on its level; levels within bounds; sprouts are distinct later nodes one level down. *)
  Record dtree (c : system) (ns : list node) : Prop := {
    dt_node : forall i n, nth_error ns i = Some n <-> node_is c i n;
    dt_listed : s_nodes (c_sup _ c) = seq 0 (length ns);
    dt_levels : length (s_levels (c_sup _ c)) = 3 /\
      forall lv ids, nth_error (s_levels (c_sup _ c)) lv = Some ids -> NoDup ids /\ forall i, In i ids <-> exists n, nth_error ns i = Some n /\ level n = lv;
    dt_level : forall n, In n ns -> level n <= max_level C;
    dt_root : exists n, nth_error ns 0 = Some n /\ level n = 0;
    dt_sprouts : forall i n, nth_error ns i = Some n -> NoDup (sprouts n) /\
      forall j, In j (sprouts n) -> i < j /\ exists m, nth_error ns j = Some m /\ level m = S (level n);
    dt_flags : forall n, In n ns -> ripe n = negb (alive n)
  }.

  (** A node that took part in a metaepoch: alive, it ran its driver for the steps of its level; dead, it did not move. *)
  Definition ran (n n' : node) : Prop :=
    if alive n
    then after_metaepoch (fun x d => Some (dstep x d)) dcost (fun x d => Some (dfinal x d)) (fun d => Some (ddelegates d)) hv_of
           (nth (level n) (metaepoch_lens C) 0) n n'
    else n' = n.
  Definition weighted_cost (n n' : node) : Q := (nth (level n) (cost_modifiers C) 0 * inject_Z (current_cost n' - current_cost n))%Q.

  (** The nodes a status request is about. *)
  Definition asked (ns : list node) (lv : option nat) : list node :=
    match lv with None => ns | Some l => filter (fun n => level n =? l) ns end.
  (** A living node whose progress is below the threshold of its level ripens and has its centre computed; others do not change. *)
  Definition trimmed (ratios : list Q) (n n' : node) : Prop :=
    (alive n = true /\ stagnates EPSILON ratios n /\ n' = with_center drv (with_flags drv n false true)) \/
    (~ (alive n = true /\ stagnates EPSILON ratios n) /\ n' = n).
  (** The first [m] are halved, the others are not. *)
  Definition halved (m : nat) (a b : list Q) : Prop :=
    length b = length a /\ forall i x, nth_error a i = Some x -> nth_error b i = Some (if i <? m then (x / 2)%Q else x).

  (** A delegate is taken when the centre of a population explored on level [lv] is closer than that level's distance. *)
  Definition is_taken (lv : nat) (explored : list (list vec)) (delegate : vec) : Prop :=
    exists p, In p explored /\ p <> [] /\ near (nth lv (min_dists C) 0%Q) (At (map inject_Z delegate)) (mean p).
  (** The sprouts made from the delegates, in order: free delegates only, [room] at most, each new population explored from then on. *)
  Inductive births (lv : nat) : list (list vec) -> nat -> list vec -> list (list vec) -> Prop :=
  | births_full explored ds : births lv explored 0 ds []
  | births_end explored room : births lv explored room [] []
  | births_taken explored room d ds ps : is_taken lv explored d -> births lv explored room ds ps -> births lv explored room (d :: ds) ps
  | births_free explored room d ds w i ps : ~ is_taken lv explored d ->
      let p := d :: w_mutants draw w i d (nth lv (population_sizes C) 0 - 1) in
      births lv (explored ++ [p]) room ds ps -> births lv explored (S room) (d :: ds) (p :: ps).

  Definition alive_at (ns : list node) (j : nat) : bool := match nth_error ns j with Some m => alive m | None => false end.
  Definition living_sprouts (ns : list node) (n : node) : nat := length (filter (alive_at ns) (sprouts n)).

  (** Node [i] has become [with more sprouts] and the new nodes are at the end. *)
  Definition grown (i : nat) (n : node) (ns : list node) (lv : nat) (ps : list (list vec)) : list node :=
    set_nth i (with_sprouts n (sprouts n ++ seq (length ns) (length ps))) ns ++
    map (fun q => fresh_node drv draw dnew Wnew (fst q) lv (snd q)) (combine (seq (length ns) (length ps)) ps).

  (** The turn of node [i] in a release round; [seeds] are the populations given to new nodes so far, with their levels. *)
  Definition explored_at (ns : list node) (seeds : list (nat * list vec)) (lv : nat) : list (list vec) :=
    map (fun m => population m) (filter (fun m => level m =? lv) ns) ++ map snd (filter (fun q => fst q =? lv) seeds).
  Definition turn (i : nat) (ns : list node) (seeds : list (nat * list vec)) (ns' : list node) (seeds' : list (nat * list vec)) : Prop :=
    exists n ps, nth_error ns i = Some n /\
      (if ripe n && (level n <? max_level C) && (living_sprouts ns n <? max_sprouts_no C)
       then births (S (level n)) (explored_at ns seeds (S (level n))) (sproutiveness C) (delegates n) ps else ps = []) /\
      ns' = grown i n ns (S (level n)) ps /\ seeds' = seeds ++ map (fun p => (S (level n), p)) ps.
  Inductive turns : list nat -> list node -> list (nat * list vec) -> list node -> list (nat * list vec) -> Prop :=
  | turns_none ns seeds : turns [] ns seeds ns seeds
  | turns_more is i ns seeds ns1 seeds1 ns2 seeds2 : turns is ns seeds ns1 seeds1 -> turn i ns1 seeds1 ns2 seeds2 -> turns (is ++ [i]) ns seeds ns2 seeds2.
End DhgsSpec.
