(** Model of distributed HGS: the supervisor actor, the node actors, their tasks, and the mail between them.
    Source: algorithms/HGS/distributed/ (actors.py, hgs_tasks.py, node_tasks.py, DistributedHGS.py, message.py).
    The actor system (thespian) is modelled by its guarantee: mail between the same two actors arrives in the order sent,
    each message once; nothing is assumed about mail between different pairs.  Messages are values (copied when sent).
    Node actors are named by their position in the supervisor's list (the order in which they are taken into use);
    createActor and the cache of 64 ready actors (actors.py:148, 161) only decide which process runs them.
    Nested drivers are assumed not to raise; per-level parameter lists are assumed to have an entry for every level
    (C94 settles both for classic HGS). *)
From Verif Require Import Spec VarModel HgsModel.
From Coq Require Import QArith.
Local Open Scope nat_scope.

(** The process that owns the DistributedHGS object, the supervisor, the nodes.
    DistributedHGS.py:91-125, actors.py:97, 169. *)
Inductive addr := Ext | Sup | Nd (i : nat).
(** actors.py:78-83: addresses are compared for equality. *)
Definition addr_eqb (a b : addr) : bool :=
  match a, b with Ext, Ext | Sup, Sup => true | Nd i, Nd j => i =? j | _, _ => false end.
(** uuid4: the actor that made it and a serial number there, so two never coincide.
    distributed/message.py:52, hgs_tasks.py:21. *)
Definition uid := (addr * nat)%type.

(** node_tasks.py:33-40 *)
Record status := { st_addr : addr; st_level : nat; st_alive : bool; st_ripe : bool; st_center : centre; st_len : nat }.
(** node_tasks.py:43-45 *)
Definition status_of (a : addr) (lv : nat) (al rp : bool) (pop : list vec) : status :=
  {| st_addr := a; st_level := lv; st_alive := al; st_ripe := rp;
     st_center := match pop with [] => Missing | _ => mean pop end; st_len := length pop |}.

(** message.py: operation and data of a message.  H is an HgsMessage, N a NodeMessage; an operation used both for the
    request and for the answer has two constructors here. *)
Inductive payload :=
| HNewMetaepoch | HTrimNotProgressing | HTrimRedundant | HCheckStatus (lv : option nat) | HPopulation | HReleaseSprouts | HRevive
| HMetaepochEnd (cost : Q) | HTrimNotProgressingEnd | HTrimRedundantEnd | HStatuses (l : list status) | HPopulations (pop : list vec)
| HReleaseSproutsEnd | HReviveEnd
| HHello | HRegister (lv : nat) (pop : list vec) | HRegistered (i : nat)
| NReset (lv : nat) (pop : list vec) | NKill
| NNewMetaepoch | NMetaepochEnd (data : option (nat * Z))
| NCheckStatus | NStatus (st : status)
| NPopulation | NPopulationIs (pop : list vec)
| NTrimNotProgressing (ratio : Q) | NTrimNotProgressingEnd
| NReleaseSprouts (next_lvl : list status) | NReleaseSproutsEnd (mine : status) (created : list status)
| NRevive | NRevived
| Done (* the string "done" *).
(** distributed/message.py:49-66. *)
Record message := mk { m_id : uid; m_body : payload }.
Notation letters := (list (addr * message)).

Section Dhgs.
  Variables drv draw : Type.
  Variable dnew : nat -> draw -> list vec -> drv.
  Variable dstep : draw -> drv -> drv.
  Variable dcost : drv -> Z.
  Variable dfinal : draw -> drv -> drv * list vec.
  Variable ddelegates : drv -> list vec.
  Variable hv_of : list vec -> Q.
  Variable EPSILON : Q.
  Variable C : config.

  (** What a task of a node draws: the steps and the finish of its driver, the shuffle, the mutants of its i-th delegate.
      node_tasks.py:96-160, 238-308. *)
  Record ndraws := { w_steps : nat -> draw; w_final : draw; w_shuffle : nat -> nat; w_mutants : nat -> vec -> nat -> list vec }.
  Variable W : nat -> nat -> ndraws.      (* node, serial number of its task *)
  Variable Wnew : nat -> draw.            (* node *)

  Notation node := (node drv).

  (* ---------------------------------------------------------------- the supervisor *)

  (** hgs_tasks.py: the state of a supervisor's task *)
  Inductive htask :=
  | TMetaepoch (sender : addr) (sid : uid) (requests finished : nat) (costs : list Q)      (* 41-49 *)
  | TStatus (sender : addr) (sid : uid) (to_check : list nat) (states : list status)       (* 89-97 *)
  | TPopulation (sender : addr) (sid : uid) (requests finished : nat) (merged : list vec)  (* 142-149 *)
  | TTrimNotProgressing (sender : addr) (sid : uid) (requests finished : nat)              (* 187-193 *)
  | TTrimRedundant (sender : addr) (sid : uid) (requests : nat) (infos : list status)      (* 223-229 *)
  | TRelease (sender : addr) (sid : uid) (lvl index : nat) (current next : list status)    (* 282-291 *)
  | TRevive (sender : addr) (sid : uid) (ripe_count finished : nat).                       (* 339-345 *)

  (** actors.py:98-107, 144-153; tasks in the order they were started, the k-th has id (Sup, k). *)
  Record supervisor := {
    s_nodes : list nat;
    s_levels : list (list nat);
    s_cost : Q;
    s_states : list status;
    s_ratios : list Q;
    s_tasks : list htask
  }.
  (** actors.py:82: self.tasks[task.id] = task, for a new task. *)
  Definition with_task (s : supervisor) (t : htask) : supervisor :=
    {| s_nodes := s_nodes s; s_levels := s_levels s; s_cost := s_cost s; s_states := s_states s; s_ratios := s_ratios s; s_tasks := s_tasks s ++ [t] |}.
  (** actors.py:140-142: the task of an answer, after its step. *)
  Definition set_task (s : supervisor) (k : nat) (t : htask) : supervisor :=
    {| s_nodes := s_nodes s; s_levels := s_levels s; s_cost := s_cost s; s_states := s_states s; s_ratios := s_ratios s; s_tasks := set_nth k t (s_tasks s) |}.
  (** hgs_tasks.py:122-139: self.hgs.node_states. *)
  Definition with_states (s : supervisor) (l : list status) : supervisor :=
    {| s_nodes := s_nodes s; s_levels := s_levels s; s_cost := s_cost s; s_states := l; s_ratios := s_ratios s; s_tasks := s_tasks s |}.
  (** hgs_tasks.py:73-86: self.hgs.cost. *)
  Definition with_cost (s : supervisor) (c : Q) : supervisor :=
    {| s_nodes := s_nodes s; s_levels := s_levels s; s_cost := c; s_states := s_states s; s_ratios := s_ratios s; s_tasks := s_tasks s |}.
  (** hgs_tasks.py:351-363: self.hgs.config.min_progress_ratio. *)
  Definition with_ratios (s : supervisor) (l : list Q) : supervisor :=
    {| s_nodes := s_nodes s; s_levels := s_levels s; s_cost := s_cost s; s_states := s_states s; s_ratios := l; s_tasks := s_tasks s |}.

  (** hgs_tasks.py:293-296; levels from the given one down, None when all are empty. *)
  Fixpoint find_leaf (s : supervisor) (n : nat) : outcome (option nat) :=
    match n with
    | 0 => Ok None
    | S lv => do ids <- get (s_levels s) lv; match ids with [] => find_leaf s lv | _ => Ok (Some lv) end
    end.

  (** hgs_tasks.py:307-314 *)
  Definition release_request (s : supervisor) (me : uid) (lvl index : nat) (next : list status) : outcome (letters) :=
    do ids <- get (s_levels s) lvl;
    do i <- get ids index;
    Ok [(Nd i, mk me (NReleaseSprouts next))].

  (** hgs_tasks.py:362-363: the first n ratios are halved; IndexError when there are fewer. *)
  Definition halve_first (n : nat) (l : list Q) : outcome (list Q) :=
    if n <=? length l then Ok (map (fun q => q / 2)%Q (firstn n l) ++ skipn n l) else Raises.

  (** actors.py:78-83 with the first step of each task: hgs_tasks.py:56-66, 103-120, 155-160, 199-213, 235-240, 302-305, 351-368. *)
  Definition start_task (s : supervisor) (from : addr) (id : uid) (p : payload) : outcome (supervisor * letters) :=
    let me := (Sup, length (s_tasks s)) in
    let n := length (s_nodes s) in
    match p with
    | HNewMetaepoch =>
        Ok (with_task (with_states s []) (TMetaepoch from id n 0 []), map (fun i => (Nd i, mk me NNewMetaepoch)) (s_nodes s))
    | HCheckStatus lv =>
        do to_check <- match lv with
                       | None => Ok (s_nodes s)
                       | Some l => if l <=? max_level C then get (s_levels s) l else Ok []
                       end;
        Ok (with_task s (TStatus from id to_check []),
            match to_check with
            | [] => [(from, mk id (HStatuses []))]
            | _ => map (fun i => (Nd i, mk me NCheckStatus)) to_check
            end)
    | HPopulation => Ok (with_task s (TPopulation from id n 0 []), map (fun i => (Nd i, mk me NPopulation)) (s_nodes s))
    | HTrimNotProgressing =>
        Ok (with_task s (TTrimNotProgressing from id n 0),
            flat_map (fun q => map (fun i => (Nd i, mk me (NTrimNotProgressing (nth (fst q) (s_ratios s) 0%Q)))) (snd q))
              (combine (seq 0 (length (s_levels s))) (s_levels s)))
    | HTrimRedundant => Ok (with_task s (TTrimRedundant from id n []), map (fun i => (Nd i, mk me NCheckStatus)) (s_nodes s))
    | HReleaseSprouts =>
        do leaf <- find_leaf s (S (max_level C));
        do lv <- of_option leaf;
        do out <- release_request s me lv 0 [];
        Ok (with_task s (TRelease from id lv 0 [] []), out)
    | HRevive =>
        if existsb st_alive (s_states s) then Ok (with_task s (TRevive from id 0 0), [(from, mk id HReviveEnd)])
        else
          let ripe_nodes := map st_addr (filter st_ripe (s_states s)) in
          do r <- halve_first (S (max_level C)) (s_ratios s);
          Ok (with_ratios (with_task s (TRevive from id (length ripe_nodes) 0)) r, map (fun a => (a, mk me NRevive)) ripe_nodes)
    | _ => Raises (* KeyError: no such task *)
    end.

  (** max(self.metaepoch_costs); ValueError when empty. hgs_tasks.py:73-86. *)
  Definition maximum (l : list Q) : outcome Q :=
    match l with [] => Raises | x :: l' => Ok (fold_left (fun m y => if Qle_bool y m then m else y) l' x) end.

  (** A groupby group is an iterator: list() reads it to the end, a second list() finds nothing.
      hgs_tasks.py:242-256. *)
  Definition list_of_iterator (it : list status) : list status * list status := (it, []).

  (** hgs_tasks.py:258-279.  self.hgs.min_dists is not an attribute of the supervisor: the first comparison raises. *)
  Fixpoint trim_loop (dead alive processed : list status) : outcome (letters) :=
    match alive with
    | [] => Ok []
    | x :: alive' =>
        if existsb st_ripe dead || negb (length processed =? 0) then Raises else trim_loop dead alive' (processed ++ [x])
    end.
  (** hgs_tasks.py:251-279: the nodes of one level. *)
  Definition trim_group (infos : list status) : outcome (letters) :=
    trim_loop (filter (fun x => negb (st_alive x)) infos) (filter st_alive infos) [].

  (** hgs_tasks.py:245-251: the groups by level, deepest first (levels are 0, 1, 2); logging a group reads it. *)
  Definition trim_groups (infos : list status) : outcome (letters) :=
    fold_ok (fun out lv =>
      match filter (fun x => st_level x =? lv) infos with
      | [] => Ok out
      | group =>
          let '(logged, group') := list_of_iterator group in
          let '(lvl_infos, _) := list_of_iterator group' in
          do more <- trim_group lvl_infos; Ok (out ++ more)
      end) [2; 1; 0] [].

  (** actors.py:140-142: an answer from a node goes to its task: hgs_tasks.py:73-86, 122-139, 162-175, 215-220, 242-254, 316-336, 370-377. *)
  Definition continue_task (s : supervisor) (from : addr) (id : uid) (p : payload) : outcome (supervisor * letters) :=
    match id with
    | (Sup, k) =>
        do t <- get (s_tasks s) k;
        match t, p with
        | TMetaepoch sender sid requests finished costs, NMetaepochEnd data =>
            let costs' := match data with None => costs | Some (lv, c) => costs ++ [(nth lv (cost_modifiers C) 0 * inject_Z c)%Q] end in
            let s' := set_task s k (TMetaepoch sender sid requests (S finished) costs') in
            if S finished =? requests then
              do m <- maximum costs';
              let s'' := with_cost s' (s_cost s' + m)%Q in
              Ok (s'', [(sender, mk sid (HMetaepochEnd (s_cost s'')))])
            else Ok (s', [])
        | TStatus sender sid to_check states, NStatus st =>
            let states' := states ++ [st] in
            Ok (set_task s k (TStatus sender sid to_check states'),
                if length states' =? length to_check then [(sender, mk sid (HStatuses states'))] else [])
        | TPopulation sender sid requests finished merged, NPopulationIs pop =>
            let merged' := merged ++ pop in
            Ok (set_task s k (TPopulation sender sid requests (S finished) merged'),
                if S finished =? requests then [(sender, mk sid (HPopulations merged'))] else [])
        | TTrimNotProgressing sender sid requests finished, NTrimNotProgressingEnd =>
            Ok (set_task s k (TTrimNotProgressing sender sid requests (S finished)),
                if S finished =? requests then [(sender, mk sid HTrimNotProgressingEnd)] else [])
        | TTrimRedundant sender sid requests infos, NStatus st =>
            let infos' := infos ++ [st] in
            let s' := set_task s k (TTrimRedundant sender sid requests infos') in
            if length infos' =? requests then
              do out <- trim_groups infos';
              Ok (s', out ++ [(sender, mk sid HTrimRedundantEnd)])
            else Ok (s', [])
        | TRelease sender sid lvl index current next, NReleaseSproutsEnd mine created =>
            let current' := current ++ [mine] in
            let next' := next ++ created in
            let s' := with_states s (s_states s ++ mine :: created) in
            do ids <- get (s_levels s) lvl;
            if length ids <=? S index then
              match lvl with
              | 0 => Ok (set_task s' k (TRelease sender sid 0 0 [] current'), [(sender, mk sid HReleaseSproutsEnd)])
              | S lvl' =>
                  do out <- release_request s' id lvl' 0 current';
                  Ok (set_task s' k (TRelease sender sid lvl' 0 [] current'), out)
              end
            else
              do out <- release_request s' id lvl (S index) next';
              Ok (set_task s' k (TRelease sender sid lvl (S index) current' next'), out)
        | TRevive sender sid ripe_count finished, NRevived =>
            Ok (set_task s k (TRevive sender sid ripe_count (S finished)),
                if S finished =? ripe_count then [(sender, mk sid HReviveEnd)] else [])
        | _, _ => Raises (* KeyError: no such step *)
        end
    | _ => Raises (* KeyError: no such task *)
    end.

  (** actors.py:160-166 *)
  Definition create_node (me : uid) (i lv : nat) (pop : list vec) : letters := [(Nd i, mk me HHello); (Nd i, mk me (NReset lv pop))].

  (** actors.py:122-142 *)
  Definition sup_receive (s : supervisor) (from : addr) (m : message) : outcome (supervisor * letters) :=
    match m_body m with
    | HRegister lv pop =>
        let i := length (s_nodes s) in
        do ids <- get (s_levels s) lv;
        Ok ({| s_nodes := s_nodes s ++ [i]; s_levels := set_nth lv (ids ++ [i]) (s_levels s); s_cost := s_cost s; s_states := s_states s;
               s_ratios := s_ratios s; s_tasks := s_tasks s |},
            create_node (Sup, length (s_tasks s)) i lv pop ++ [(from, mk (m_id m) (HRegistered i))])
    | HNewMetaepoch | HTrimNotProgressing | HTrimRedundant | HCheckStatus _ | HPopulation | HReleaseSprouts | HRevive =>
        start_task s from (m_id m) (m_body m)
    | NMetaepochEnd _ | NStatus _ | NPopulationIs _ | NTrimNotProgressingEnd | NReleaseSproutsEnd _ _ | NRevived =>
        continue_task s from (m_id m) (m_body m)
    | Done => Ok (s, [])
    | _ => Raises
    end.

  (* ---------------------------------------------------------------- the nodes *)

  (** node_tasks.py:196-206 *)
  Record sprouting := {
    r_sender : addr; r_sid : uid;
    r_alive : nat;                (* alive_sprouts_count *)
    r_next : list status;         (* next_lvl_sprouts_states *)
    r_checked : nat;              (* sprouts_checked *)
    r_released : nat;             (* released_sprouts *)
    r_index : nat;                (* current_delegate_index *)
    r_created : list status       (* created_sprouts_states *)
  }.
  (** Tasks that finish where they start keep no state. node_tasks.py:48-193. *)
  Inductive ntask := TOnce | TSprouting (r : sprouting).

  (** actors.py:169-196: a_node is None before the first RESET; a_sup is self.supervisor *)
  Record nactor := { a_node : option node; a_sup : option addr; a_tasks : list ntask }.
  (** actors.py:169-196: an actor just created. *)
  Definition blank : nactor := {| a_node := None; a_sup := None; a_tasks := [] |}.

  (** actors.py:229-270: reset *)
  Definition fresh_node (i lv : nat) (pop : list vec) : node :=
    {| alive := true; ripe := false; level := lv; current_cost := 0; driver := dnew lv (Wnew i) pop; population := []; sprouts := [];
       delegates := []; center := Missing; relative_hypervolume := None; old_hypervolume := None; hypervolume := None |}.

  (** node_tasks.py:96-160; the result data is the last message's: its level and its cost since the metaepoch began. *)
  Definition node_metaepoch (w : ndraws) (n : node) : node * option (nat * Z) :=
    if alive n then
      let len := nth (level n) (metaepoch_lens C) 0 in
      let d := fold_left (fun d k => dstep (w_steps w k) d) (seq 0 len) (driver n) in
      let data := if len =? 0 then None else Some (level n, (dcost d - current_cost n)%Z) in
      let '(d', pop) := dfinal (w_final w) d in
      let v := hv_of pop in
      ({| alive := true; ripe := ripe n; level := level n; current_cost := if len =? 0 then current_cost n else dcost d; driver := d';
          population := pop; sprouts := sprouts n; delegates := shuffle (w_shuffle w) (ddelegates d'); center := center n;
          relative_hypervolume := match relative_hypervolume n with None => Some v | Some r => Some r end;
          old_hypervolume := hypervolume n;
          hypervolume := match relative_hypervolume n with None => hypervolume n | Some r => Some (v - r)%Q end |}, data)
    else (n, None).

  (** node_tasks.py:170-189; hypervolume is None only while old_hypervolume is. *)
  Definition node_trim (ratio : Q) (n : node) : node :=
    if alive n && match old_hypervolume n with
                  | None => false
                  | Some old => negb (Qle_bool old 0) &&
                      match hypervolume n with
                      | None => false
                      | Some h => negb (Qle_bool (ratio / inject_Z (2 ^ Z.of_nat (level n))) (h / (old + EPSILON) - 1))
                      end
                  end
    then with_center drv (with_flags drv n false true) else n.

  (** node_tasks.py:43-59: the state a node reports. *)
  Definition node_status (a : addr) (n : node) : status := status_of a (level n) (alive n) (ripe n) (population n).

  (** node_tasks.py:272-282: is the delegate close to a centre of the next level? *)
  Definition delegate_redundant (lv : nat) (next : list status) (delegate : vec) : outcome bool :=
    fold_ok (fun acc st =>
      if st_len st =? 0 then Ok acc
      else do r <- redundant (point delegate) (st_center st) (nth lv (min_dists C) 0%Q); Ok (acc || r)) next false.

  (** node_tasks.py:249-308: what one pass over the delegates comes to: the task ends, or a sprout is to be registered. *)
  Inductive verdict := Finished (r : sprouting) | Registers (r : sprouting) (lv : nat) (pop : list vec).
  (** node_tasks.py:249-308 from the delegates not yet looked at; a released sprout interrupts the search (297-304). *)
  Fixpoint seek (w : ndraws) (i : nat) (n : node) (ds : list vec) (r : sprouting) : outcome verdict :=
    match ds with
    | [] => Ok (Finished r)
    | delegate :: ds' =>
        if (sproutiveness C <=? r_released r) || (max_sprouts_no C <=? r_alive r) then Ok (Finished r)
        else
          let lv := S (level n) in
          do close <- delegate_redundant lv (r_next r) delegate;
          if close then
            seek w i n ds' {| r_sender := r_sender r; r_sid := r_sid r; r_alive := r_alive r; r_next := r_next r; r_checked := r_checked r;
                              r_released := r_released r; r_index := S (r_index r); r_created := r_created r |}
          else
            (* tools.py:11-15 *)
            let pop := delegate :: w_mutants w (r_index r) delegate (nth lv (population_sizes C) 0 - 1) in
            let st := status_of (Nd i) lv true false pop in
            Ok (Registers {| r_sender := r_sender r; r_sid := r_sid r; r_alive := r_alive r; r_next := r_next r ++ [st]; r_checked := r_checked r;
                             r_released := r_released r; r_index := S (r_index r); r_created := r_created r ++ [st] |} lv pop)
    end.
  (** The verdict as letters: node_tasks.py:297-304, 310-321. *)
  Definition act (i : nat) (a : nactor) (n : node) (me : uid) (k : nat) (v : verdict) : outcome (nactor * letters) :=
    match v with
    | Finished r =>
        Ok ({| a_node := Some n; a_sup := a_sup a; a_tasks := set_nth k (TSprouting r) (a_tasks a) |},
            [(r_sender r, mk (r_sid r) (NReleaseSproutsEnd (node_status (Nd i) n) (r_created r)))])
    | Registers r lv pop =>
        do sup <- of_option (a_sup a);
        Ok ({| a_node := Some n; a_sup := a_sup a; a_tasks := set_nth k (TSprouting r) (a_tasks a) |}, [(sup, mk me (HRegister lv pop))])
    end.
  (** node_tasks.py:238-247 *)
  Definition start_sprouting (w : ndraws) (i : nat) (n : node) (r : sprouting) : outcome verdict :=
    if (level n <? max_level C) && (r_alive r <? max_sprouts_no C) && negb (length (delegates n) =? 0)
    then seek w i n (delegates n) r else Ok (Finished r).

  (** actors.py:215-219: a message for a task that is already there.  The finished tasks have no second step. *)
  Definition node_continue (i : nat) (a : nactor) (n : node) (k : nat) (p : payload) : outcome (nactor * letters) :=
    do t <- get (a_tasks a) k;
    match t, p with
    | TSprouting r, NStatus st =>               (* node_tasks.py:231-236 *)
        let r' := {| r_sender := r_sender r; r_sid := r_sid r; r_alive := (if st_alive st then 1 else 0) + r_alive r; r_next := r_next r;
                     r_checked := S (r_checked r); r_released := r_released r; r_index := r_index r; r_created := r_created r |} in
        if r_checked r' =? length (sprouts n) then do v <- start_sprouting (W i k) i n r'; act i a n (Nd i, k) k v
        else Ok ({| a_node := Some n; a_sup := a_sup a; a_tasks := set_nth k (TSprouting r') (a_tasks a) |}, [])
    | TSprouting r, HRegistered j =>            (* node_tasks.py:323-328 *)
        let n' := add_sprout drv n j in
        let r' := {| r_sender := r_sender r; r_sid := r_sid r; r_alive := r_alive r; r_next := r_next r;
                     r_checked := r_checked r; r_released := S (r_released r); r_index := r_index r; r_created := r_created r |} in
        do v <- seek (W i k) i n' (skipn (r_index r) (delegates n')) r'; act i a n' (Nd i, k) k v
    | _, _ => Raises
    end.

  (** actors.py:78-83, 202-210 with node_tasks.py:55-59, 69-72, 82-85, 96-132, 170-193, 213-229 *)
  Definition node_start (i : nat) (a : nactor) (n : node) (from : addr) (id : uid) (p : payload) : outcome (nactor * letters) :=
    let k := length (a_tasks a) in
    let done n' m := Ok ({| a_node := Some n'; a_sup := a_sup a; a_tasks := a_tasks a ++ [TOnce] |}, [(from, mk id m)]) in
    match p with
    | NCheckStatus => done n (NStatus (node_status from n))
    | NPopulation => done n (NPopulationIs (population n))
    | NNewMetaepoch => let '(n', data) := node_metaepoch (W i k) n in done n' (NMetaepochEnd data)
    | NTrimNotProgressing ratio => done (node_trim ratio n) NTrimNotProgressingEnd
    | NRevive => done (with_flags drv n true false) NRevived
    | NReleaseSprouts next =>
        let r := {| r_sender := from; r_sid := id; r_alive := 0; r_next := next; r_checked := 0; r_released := 0; r_index := 0; r_created := [] |} in
        let a' := {| a_node := Some n; a_sup := a_sup a; a_tasks := a_tasks a ++ [TSprouting r] |} in
        if ripe n then
          match sprouts n with
          | [] => do v <- start_sprouting (W i k) i n r; act i a' n (Nd i, k) k v
          | _ => Ok (a', map (fun j => (Nd j, mk (Nd i, k) NCheckStatus)) (sprouts n))
          end
        else act i a' n (Nd i, k) k (Finished r)
    | _ => Raises (* KeyError: no such task, e.g. KILL *)
    end.

  (** actors.py:215-227.  A node that has not been RESET has no state to work on. *)
  Definition node_receive (i : nat) (a : nactor) (from : addr) (m : message) : outcome (nactor * letters) :=
    match m_id m, a_node a with
    | (Nd j, k), Some n => if (j =? i) && (k <? length (a_tasks a)) then node_continue i a n k (m_body m) else node_start i a n from (m_id m) (m_body m)
    | _, _ =>
        match m_body m, a_node a with
        | NReset lv pop, _ => Ok ({| a_node := Some (fresh_node i lv pop); a_sup := a_sup a; a_tasks := a_tasks a |}, [(from, mk (m_id m) Done)])
        | HHello, _ => Ok ({| a_node := a_node a; a_sup := Some from; a_tasks := a_tasks a |}, [])
        | p, Some n => node_start i a n from (m_id m) p
        | _, None => Raises
        end
    end.

  (* ---------------------------------------------------------------- the actor system *)

  (** c_trace is the history of deliveries; no actor reads it.
      actors.py (the actors) and thespian (the channels). *)
  Record system := {
    c_sup : supervisor;
    c_nodes : nat -> nactor;
    c_mail : addr -> addr -> list message;       (* sender, receiver *)
    c_trace : list (addr * addr * message)
  }.

  (** actors.py:71-73: send; thespian appends to the channel. *)
  Definition put (from : addr) (out : letters) (mail : addr -> addr -> list message) : addr -> addr -> list message :=
    fun a b => mail a b ++ (if addr_eqb a from then map snd (filter (fun l => addr_eqb (fst l) b) out) else []).
  (** thespian: the oldest message leaves its channel, before receiveMessage is called (actors.py:122, 215). *)
  Definition taken_out (from to : addr) (q : list message) (mail : addr -> addr -> list message) : addr -> addr -> list message :=
    fun a b => if addr_eqb a from && addr_eqb b to then q else mail a b.

  (** The receiver handles the message at the head of a channel.
      actors.py:122-142, 215-227. *)
  Definition receive (c : system) (from to : addr) (m : message) (q : list message) : outcome system :=
    let mail := taken_out from to q (c_mail c) in
    let trace := c_trace c ++ [(from, to, m)] in
    match to with
    | Ext => Ok {| c_sup := c_sup c; c_nodes := c_nodes c; c_mail := mail; c_trace := trace |}
    | Sup =>
        do (s, out) <- sup_receive (c_sup c) from m;
        Ok {| c_sup := s; c_nodes := c_nodes c; c_mail := put Sup out mail; c_trace := trace |}
    | Nd i =>
        do (a, out) <- node_receive i (c_nodes c i) from m;
        Ok {| c_sup := c_sup c; c_nodes := fun j => if j =? i then a else c_nodes c j; c_mail := put (Nd i) out mail; c_trace := trace |}
    end.

  (** One delivery: of the oldest message of any channel. actors.py:122-142, 215-227. *)
  Inductive deliver (c : system) : outcome system -> Prop :=
  | deliver_from from to m q : c_mail c from to = m :: q -> deliver c (receive c from to m q).

  (** ActorSystem().ask (DistributedHGS.py:102-125): the request is posted; k numbers the requests. *)
  Definition ask (k : nat) (p : payload) (c : system) : system :=
    {| c_sup := c_sup c; c_nodes := c_nodes c; c_mail := put Ext [(Sup, mk (Ext, k) p)] (c_mail c); c_trace := c_trace c |}.

  (** actors.py:144-158: the system once START has been handled (DistributedHGS.py:91-93), the root's mail not yet read. *)
  Definition initial (ratios : list Q) (pop : list vec) : system :=
    {| c_sup := {| s_nodes := [0]; s_levels := [[0]; []; []]; s_cost := 0%Q; s_states := []; s_ratios := ratios; s_tasks := [] |};
       c_nodes := fun _ => blank;
       c_mail := put Sup (create_node (Sup, 0) 0 0 pop) (fun _ _ => []);
       c_trace := [] |}.
End Dhgs.
