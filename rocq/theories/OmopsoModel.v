(** Model of the OMOPSO driver.  Source: algorithms/OMOPSO/OMOPSO.py.
    Objectives and coordinates are exact numbers (Z), crowding values are rationals or infinity
    (None).  eta is the fraction en/ed.  Individuals are values: deepcopy is the identity, and
    list.remove, which compares identities, removes the element at hand.  None = exception. *)
From Verif Require Import Spec DomModel SortModel VarModel NsgaModel SpeaModel SmsModel MetModel.
From Coq Require Import QArith.
Local Open Scope nat_scope.

(** OMOPSO.py:263-267; None = IndexError (p has fewer objectives than self). *)
Fixpoint equal_obj (self p : vec) : option bool :=
  match self, p with
  | [], _ => Some true
  | _ :: _, [] => None
  | a :: self', b :: p' => if (a =? b)%Z then equal_obj self' p' else Some false
  end.

(** A member of an archive: a deep copy of a particle, of which only these fields are read.
    OMOPSO.py:66-69, 109-113, 234-248. *)
Record leader := mk_leader { l_value : vec; l_objs : vec; l_crowd : option Q }.

(** OMOPSO.py:280-289.  [kept]: the part of the list the iterator has passed, [rest]: what is ahead
    of it.  Removing the current element moves the following ones one place down, so the iterator
    skips the next element. *)
Fixpoint scan (en ed : Z) (p : leader) (kept rest : list leader) {struct rest} : option (list leader * bool) :=
  match rest with
  | [] => Some (kept ++ [p], true)
  | l :: rest' =>
      match omopso_dominates en ed (l_objs l) (l_objs p) with
      | None => None
      | Some true => Some (kept ++ rest, false)
      | Some false =>
          match omopso_dominates en ed (l_objs p) (l_objs l) with
          | None => None
          | Some true =>
              match rest' with
              | [] => Some (kept ++ [p], true)
              | skipped :: rest'' => scan en ed p (kept ++ [skipped]) rest''
              end
          | Some false =>
              match equal_obj (l_objs l) (l_objs p) with
              | None => None
              | Some true => Some (kept ++ rest, false)
              | Some false => scan en ed p (kept ++ [l]) rest'
              end
          end
      end
  end.
(** OMOPSO.py:278-289: the new contents and the returned value. *)
Definition archive_add (en ed : Z) (archive : list leader) (p : leader) : option (list leader * bool) :=
  scan en ed p [] archive.

(** Objective i of a member; shorter vectors are excluded by [crowding].
    OMOPSO.py:316-331. *)
Definition objective (i : nat) (l : leader) : Z := nth i (l_objs l) 0%Z.
(** OMOPSO.py:308-332: crowd_val = c. *)
Definition set_crowd (c : option Q) (l : leader) : leader := mk_leader (l_value l) (l_objs l) c.

(** OMOPSO.py:323-332 for the members from position j >= 1 on, [prev] being the one before; the last
    one (position archive_len - 1) got infinity in line 321. *)
Fixpoint crowd_rest (i : nat) (span : Z) (prev : leader) (rest : list leader) : list leader :=
  match rest with
  | [] => []
  | l :: rest' =>
      match rest' with
      | [] => [set_crowd None l]
      | _ :: _ =>
          set_crowd (if (0 <? span)%Z
                     then match l_crowd l with
                          | Some c => Some (c + inject_Z (objective i l - objective i prev) / inject_Z span)%Q
                          | None => None
                          end
                     else None) l
          :: crowd_rest i span l rest'
      end
  end.
(** OMOPSO.py:316-332: one objective. *)
Definition crowd_objective (archive : list leader) (i : nat) : list leader :=
  match stable_sort (fun a b => (objective i a <=? objective i b)%Z) archive with
  | [] => []
  | l :: rest => set_crowd None l :: crowd_rest i (objective i (last rest l) - objective i l) l rest
  end.
(** OMOPSO.py:308-332; IndexError for an empty archive (line 312) or a member with fewer objectives
    than the first (lines 316-331). *)
Definition crowding (archive : list leader) : option (list leader) :=
  match archive with
  | [] => None
  | first :: _ =>
      let obj_n := length (l_objs first) in
      if existsb (fun l => length (l_objs l) <? obj_n) archive then None
      else Some (fold_left crowd_objective (seq 0 obj_n) (map (set_crowd (Some 0%Q)) archive))
  end.

(** OMOPSO.py:231, 303-306: < on crowding values, None standing for infinity. *)
Definition crowd_lt (a b : option Q) : bool :=
  match a, b with
  | Some x, Some y => negb (Qle_bool y x)
  | Some _, None => true
  | None, _ => false
  end.
(** max(archive, key=crowd_val), the first one on ties: its position.
    OMOPSO.py:303-306. *)
Fixpoint max_crowd (pos best_pos : nat) (best : leader) (rest : list leader) : nat :=
  match rest with
  | [] => best_pos
  | l :: rest' =>
      if crowd_lt (l_crowd best) (l_crowd l) then max_crowd (S pos) pos l rest' else max_crowd (S pos) best_pos best rest'
  end.
(** OMOPSO.py:303-306 *)
Definition prune (archive : list leader) : option (list leader) :=
  match crowding archive with
  | None => None
  | Some l =>
      match l with
      | [] => None
      | first :: rest => let worst := max_crowd 1 0 first rest in Some (firstn worst l ++ skipn (S worst) l)
      end
  end.
(** OMOPSO.py:297-301 *)
Definition leader_add (size : nat) (archive : list leader) (p : leader) : option (list leader * bool) :=
  match archive_add 0 1 archive p with
  | None => None
  | Some (l, added) =>
      if added && (size <? length l) then match prune l with None => None | Some l' => Some (l', added) end
      else Some (l, added)
  end.

(** A particle.  best_val is a copy of an earlier state of the particle, with its own best_val and so
    on: [bests] lists that chain, newest first, keeping value and objectives; empty = best_val is None.
    [visited]: all positions at which the particle was evaluated, newest first (not in the code).
    OMOPSO.py:234-248. *)
Record particle := { value : vec; speed : vec; objectives : vec; bests : list (vec * vec); visited : list vec }.

(** OMOPSO.py:234-240 *)
Definition new_particle (v : vec) : particle :=
  {| value := v; speed := repeat 0%Z (length v); objectives := []; bests := []; visited := [] |}.
(** OMOPSO.py:66-69, 109-113: copy.deepcopy(p). *)
Definition as_leader (p : particle) : leader := mk_leader (value p) (objectives p) (Some 0%Q).

(** Random draws of a step: for particle k, the two leaders sampled for the tournament, and for
    coordinate j the new speed as a function of the old one, the personal best, the position and the
    leader (lines 146-157; the formula is left open). *)
Record om_draws := {
  om_pick : nat -> nat * nat;
  om_speed : nat -> nat -> Z -> Z -> Z -> Z -> Z
}.

(** OMOPSO.py:27-43. *)
Record om_state := {
  om_particles : list particle; om_size : nat; om_leaders : list leader; om_archive : list leader;
  om_cost : nat; om_evals : list vec
}.

(** OMOPSO.py:225-231 and 140-144: the leader for particle k.  random.sample gives two positions. *)
Definition choose_leader (leaders : list leader) (pick : nat * nat) : option leader :=
  if 1 <? length leaders then
    match nth_error leaders (fst pick), nth_error leaders (snd pick) with
    | Some a, Some b => Some (if crowd_lt (l_crowd b) (l_crowd a) then b else a)
    | _, _ => None
    end
  else nth_error leaders 0.

(** OMOPSO.py:152-157 from coordinate j on, for [n] coordinates; None = IndexError. *)
Fixpoint new_speed (f : nat -> Z -> Z -> Z -> Z -> Z) (n j : nat) (s b v g : vec) : option vec :=
  match n with
  | O => Some s
  | S n' =>
      match s, b, v, g with
      | s0 :: s', b0 :: b', v0 :: v', g0 :: g' =>
          match new_speed f n' (S j) s' b' v' g' with
          | None => None
          | Some r => Some (f j s0 b0 v0 g0 :: r)
          end
      | _, _, _, _ => None
      end
  end.
(** OMOPSO.py:138-157 for particle k; None = AttributeError when best_val is None. *)
Definition speed_up (P : params) (D : om_draws) (leaders : list leader) (kp : nat * particle) : option particle :=
  let '(k, p) := kp in
  match choose_leader leaders (om_pick D k), bests p with
  | Some g, (b, _) :: _ =>
      match new_speed (om_speed D k) (length (p_dims P)) 0 (speed p) b (value p) (l_value g) with
      | None => None
      | Some s => Some {| value := value p; speed := s; objectives := objectives p; bests := bests p; visited := visited p |}
      end
  | _, _ => None
  end.
(** OMOPSO.py:126-136 and 85-86.  Lines 82-83 have no effect: the iterators made by map() in
    mopso_mutation (lines 165, 174) are never consumed. *)
Definition moved_particle (P : params) (p : particle) : option particle :=
  match move (p_dims P) (value p) (speed p) with
  | None => None
  | Some (v, s) => Some {| value := p_trim P v; speed := s; objectives := objectives p; bests := bests p; visited := visited p |}
  end.

(** OMOPSO.py:115-124, the same code as in SMS-EMOA. *)
Definition set_objectives (pm : particle * member) : particle :=
  {| value := value (fst pm); speed := speed (fst pm); objectives := m_objectives (snd pm); bests := bests (fst pm);
     visited := value (fst pm) :: visited (fst pm) |}.
(** OMOPSO.py:115-124. *)
Definition om_evaluate (P : params) (fa : option (list (vec * vec))) (ps : list particle) (tr : list vec)
  : list particle * (nat * list vec) :=
  let '(ms, ct) := sms_objectives (p_f P) fa (length ps) (map value ps) tr in
  (map set_objectives (combine ps ms), ct).

(** OMOPSO.py:66-69 and 109-113 *)
Fixpoint update_leaders (size : nat) (en ed : Z) (ps : list particle) (acc : list leader * list leader) : option (list leader * list leader) :=
  match ps with
  | [] => Some acc
  | p :: ps' =>
      match leader_add size (fst acc) (as_leader p) with
      | None => None
      | Some (leaders, false) => update_leaders size en ed ps' (leaders, snd acc)
      | Some (leaders, true) =>
          match archive_add en ed (snd acc) (as_leader p) with
          | None => None
          | Some (archive, _) => update_leaders size en ed ps' (leaders, archive)
          end
      end
  end.

(** OMOPSO.py:53-55, 107: best_val = deepcopy(p) *)
Definition record_best (p : particle) : particle :=
  {| value := value p; speed := speed p; objectives := objectives p; bests := (value p, objectives p) :: bests p; visited := visited p |}.
(** OMOPSO.py:102-107 for one particle; None = AttributeError or IndexError. *)
Definition update_best (p : particle) : option particle :=
  match bests p with
  | [] => None
  | (_, bo) :: _ =>
      match omopso_dominates 0 1 (objectives p) bo with
      | None => None
      | Some true => Some (record_best p)
      | Some false => Some p
      end
  end.

(** OMOPSO.py:11-43, 57-69 *)
Definition om_init (P : params) (en ed : Z) (fa : option (list (vec * vec))) (population : list vec) : option om_state :=
  let '(ps, (c, tr)) := om_evaluate P fa (map (fun v => new_particle (p_trim P v)) population) [] in
  match update_leaders (length population) en ed ps ([], []) with
  | None => None
  | Some (leaders, archive) =>
      match crowding leaders with
      | None => None
      | Some leaders' =>
          Some {| om_particles := map record_best ps; om_size := length population; om_leaders := leaders';
                  om_archive := archive; om_cost := c; om_evals := tr |}
      end
  end.

(** OMOPSO.py:74-100 *)
Definition om_step (P : params) (en ed : Z) (fa : option (list (vec * vec))) (D : om_draws) (s : om_state) : option om_state :=
  match comprehension (speed_up P D (om_leaders s)) (combine (seq 0 (length (om_particles s))) (om_particles s)) with
  | None => None
  | Some ps1 =>
      match comprehension (moved_particle P) ps1 with
      | None => None
      | Some ps2 =>
          let '(ps3, (c, tr)) := om_evaluate P fa ps2 (om_evals s) in
          match update_leaders (om_size s) en ed ps3 (om_leaders s, om_archive s) with
          | None => None
          | Some (leaders, archive) =>
              match comprehension update_best ps3 with
              | None => None
              | Some ps4 =>
                  match crowding leaders with
                  | None => None
                  | Some leaders' =>
                      Some {| om_particles := ps4; om_size := om_size s; om_leaders := leaders'; om_archive := archive;
                              om_cost := om_cost s + c; om_evals := tr |}
                  end
              end
          end
      end
  end.

(** OMOPSO.py:74-100, any number of steps. *)
Fixpoint om_steps (P : params) (en ed : Z) (fa : option (list (vec * vec))) (Ds : list om_draws) (s : om_state) : option om_state :=
  match Ds with
  | [] => Some s
  | D :: Ds' => match om_step P en ed fa D s with None => None | Some s' => om_steps P en ed fa Ds' s' end
  end.

(** OMOPSO.py:71-72 *)
Definition om_finalized (s : om_state) : list vec := map l_value (om_archive s).

(** OMOPSO.py:49-51: driver.population = pop *)
Definition om_set_population (pop : list vec) (s : om_state) : om_state :=
  {| om_particles := map new_particle pop; om_size := om_size s; om_leaders := om_leaders s; om_archive := om_archive s;
     om_cost := om_cost s; om_evals := om_evals s |}.
