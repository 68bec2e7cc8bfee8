(** Property theorems C16-C21: variation operators and population generation. *)
From Verif Require Import Spec VarSpec VarModel VarProofs.
From Coq Require Import QArith.
Local Open Scope Z_scope.

(** C16 - [raw] is whatever the perturbation formula yields, [sel] and [rnd] the draws;
    gene j is selected iff its draw does not exceed the mutation rate. *)
Theorem C16_mutate_genes :
  forall (raw : Z -> Z -> Z -> Z -> Z) (sel rnd : nat -> Z) (rate : Z) (xs : vec) (dims : box),
    length xs = length dims ->
    exists ys, mutate raw sel rnd rate xs dims = Some ys /\ length ys = length xs /\
      forall j lb ub x, nth_error dims j = Some (lb, ub) -> nth_error xs j = Some x ->
        exists y, nth_error ys j = Some y /\
          (rate < sel j -> y = x) /\
          (sel j <= rate -> lb <= ub ->
             lb <= y <= ub /\
             (lb <= raw lb ub x (rnd j) <= ub -> y = raw lb ub x (rnd j))).
Proof. exact mutate_genes. Qed.
Print Assumptions C16_mutate_genes.

Theorem C16_mutate_in_box :
  forall (raw : Z -> Z -> Z -> Z -> Z) (sel rnd : nat -> Z) (rate : Z) (xs : vec) (dims : box),
    valid_box dims -> in_box dims xs ->
    exists ys, mutate raw sel rnd rate xs dims = Some ys /\ in_box dims ys.
Proof. exact mutate_in_box. Qed.
Print Assumptions C16_mutate_in_box.

Example C16_example :
  mutate (fun lb ub y r => y + r) (fun i => nth i [1; 9; 2] 0) (fun i => nth i [100; 5; -3] 0) 5
         [3; 4; 5] [(0, 10); (0, 10); (0, 10)] = Some [10; 4; 2]
  /\ valid_box [(0, 10); (0, 10); (0, 10)] /\ in_box [(0, 10); (0, 10); (0, 10)] [3; 4; 5].
Proof. split; [reflexivity|]. split; repeat constructor; simpl; lia. Qed.

(** C17 *)
Theorem C17_crossover :
  forall (raw_a raw_b : Z -> Z -> Z -> Z -> Z -> Z) (skip rand swap : nat -> Z)
         (half epsilon r0 rate : Z) (pick : bool) (xs ys : vec) (dims : box),
    0 <= epsilon -> valid_box dims -> length xs = length dims -> length ys = length dims ->
    exists zs,
      crossover raw_a raw_b skip rand swap half epsilon r0 rate pick xs ys dims = Some zs /\
      length zs = length dims /\
      (rate < r0 -> zs = xs \/ zs = ys) /\
      (forall j lb ub x y, nth_error dims j = Some (lb, ub) ->
         nth_error xs j = Some x -> nth_error ys j = Some y ->
         exists z, nth_error zs j = Some z /\
           (z = x \/ z = y \/ lb <= z <= ub) /\ (x = y -> z = x)) /\
      (in_box dims xs -> in_box dims ys -> in_box dims zs).
Proof. exact crossover_genes. Qed.
Print Assumptions C17_crossover.

Example C17_example :
  crossover (fun lb ub y1 y2 r => y1 - r) (fun lb ub y1 y2 r => y2 + r)
            (fun i => nth i [0; 0; 9] 0) (fun _ => 3) (fun i => nth i [0; 9; 0] 0) 5 0 0 9 true
            [2; 7; 5] [6; 1; 8] [(0, 10); (0, 9); (0, 10)] = Some [0; 9; 5].
Proof. reflexivity. Qed.

(** C18 - [f] is the objective function of the problem.  Children made by crossover followed
    by mutation either have no cached objectives or the right ones. *)
Theorem C18_nsgaiii_variation_fresh :
  forall (raw_a raw_b : Z -> Z -> Z -> Z -> Z -> Z) (skip rand swap : nat -> Z)
         (half epsilon : Z) (raw : Z -> Z -> Z -> Z -> Z) (sel rnd : nat -> Z) (rate : Z)
         (f : vec -> vec) (r0 crate : Z) (pa pb : indiv3) (dims : box),
    0 <= epsilon -> valid_box dims -> in_box dims (v3 pa) -> in_box dims (v3 pb) ->
    objs3 pa = Some (f (v3 pa)) -> objs3 pb = Some (f (v3 pb)) ->
    exists ca cb,
      simulated_binary_crossover raw_a raw_b skip rand swap half epsilon r0 crate pa pb dims
        = Some (ca, cb) /\
      forall child, child = ca \/ child = cb ->
      exists r, polynomial_mutation raw sel rnd rate dims child = Some r /\
        in_box dims (v3 r) /\ (objs3 r = None \/ objs3 r = Some (f (v3 r))).
Proof. exact nsgaiii_offspring_fresh. Qed.
Print Assumptions C18_nsgaiii_variation_fresh.

Theorem C18_crossover_resets_objectives :
  forall (raw_a raw_b : Z -> Z -> Z -> Z -> Z -> Z) (skip rand swap : nat -> Z)
         (half epsilon r0 crate : Z) (pa pb : indiv3) (dims : box),
    0 <= epsilon -> valid_box dims -> in_box dims (v3 pa) -> in_box dims (v3 pb) ->
    objs3 pa <> None -> objs3 pb <> None ->
    exists ca cb,
      simulated_binary_crossover raw_a raw_b skip rand swap half epsilon r0 crate pa pb dims
        = Some (ca, cb) /\
      in_box dims (v3 ca) /\ in_box dims (v3 cb) /\
      (objs3 ca <> None -> ca = pa) /\ (objs3 cb <> None -> cb = pb).
Proof. exact nsgaiii_sbx_ok. Qed.
Print Assumptions C18_crossover_resets_objectives.

Theorem C18_mutation_resets_objectives :
  forall (raw : Z -> Z -> Z -> Z -> Z) (sel rnd : nat -> Z) (rate : Z) (dims : box) (ind : indiv3),
    valid_box dims -> in_box dims (v3 ind) ->
    exists r, polynomial_mutation raw sel rnd rate dims ind = Some r /\
      in_box dims (v3 r) /\
      (forall j x, rate < sel j -> nth_error (v3 ind) j = Some x -> nth_error (v3 r) j = Some x) /\
      (v3 r <> v3 ind -> objs3 r = None) /\
      (objs3 r = None \/ objs3 r = objs3 ind).
Proof. exact polynomial_mutation_ok. Qed.
Print Assumptions C18_mutation_resets_objectives.

Example C18_example :
  polynomial_mutation (fun lb ub y r => y + r) (fun i => nth i [1; 9] 0) (fun _ => 4) 5
    [(0, 5); (0, 5)] (mk3 [3; 2] (Some [7])) = Some (mk3 [5; 2] None) /\
  polynomial_mutation (fun lb ub y r => y + r) (fun i => 9) (fun _ => 4) 5
    [(0, 5); (0, 5)] (mk3 [3; 2] (Some [7])) = Some (mk3 [3; 2] (Some [7])) /\
  simulated_binary_crossover (fun lb ub y1 y2 r => y1 - r) (fun lb ub y1 y2 r => y2 + r)
    (fun _ => 0) (fun _ => 1) (fun _ => 0) 5 0 0 9
    (mk3 [3; 2] (Some [7])) (mk3 [1; 4] (Some [8])) [(0, 5); (0, 5)]
  = Some (mk3 [0; 1] None, mk3 [4; 5] None).
Proof. repeat split. Qed.

(** C19 *)
Theorem C19_move :
  forall (dims : box) (value speed : vec),
    valid_box dims -> length value = length dims -> length speed = length dims ->
    exists value' speed', move dims value speed = Some (value', speed') /\
      in_box dims value' /\ length speed' = length dims /\
      forall j lb ub x s, nth_error dims j = Some (lb, ub) ->
        nth_error value j = Some x -> nth_error speed j = Some s ->
        (lb <= x + s <= ub -> nth_error value' j = Some (x + s) /\ nth_error speed' j = Some s) /\
        (x + s < lb -> nth_error value' j = Some lb /\ nth_error speed' j = Some (- s)) /\
        (ub < x + s -> nth_error value' j = Some ub /\ nth_error speed' j = Some (- s)).
Proof. exact move_ok. Qed.
Print Assumptions C19_move.

Theorem C19_mutation_genes :
  forall (touch : nat -> bool) (delta : nat -> Z -> Z) (dims : box) (value : vec),
    valid_box dims -> length value = length dims ->
    exists value', omopso_mutation touch delta 0 dims value = Some value' /\
      length value' = length dims /\
      forall j lb ub x, nth_error dims j = Some (lb, ub) -> nth_error value j = Some x ->
        exists y, nth_error value' j = Some y /\
          (touch j = false -> y = x) /\
          (touch j = true -> let moved := x + delta j x in
             (lb <= moved <= ub -> y = moved) /\ (moved < lb -> y = lb) /\ (ub < moved -> y = ub)).
Proof. exact (fun touch delta dims => omopso_mutation_ok touch delta dims 0). Qed.
Print Assumptions C19_mutation_genes.

Theorem C19_mutation_in_box :
  forall (touch : nat -> bool) (delta : nat -> Z -> Z) (dims : box) (value : vec),
    valid_box dims -> in_box dims value ->
    exists value', omopso_mutation touch delta 0 dims value = Some value' /\ in_box dims value'.
Proof. exact omopso_mutation_in_box. Qed.
Print Assumptions C19_mutation_in_box.

Example C19_example :
  move [(0, 10); (0, 10); (0, 10)] [5; 5; 5] [2; 7; -9] = Some ([7; 10; 0], [2; -7; 9]) /\
  omopso_mutation (fun i => (i =? 1)%nat) (fun i x => 30 - x) 0 [(0, 10); (0, 10)] [3; 4]
    = Some [3; 10].
Proof. split; reflexivity. Qed.

(** C20 - the positions are the sorted samples of distinct indices; both samples have the same
    size since both parents have the same length; insertion points are arbitrary. *)
Local Open Scope Q_scope.
Theorem C20_cut_and_paste :
  forall (dims : list (Q * Q)) (xpos ypos : list nat) (xi yi : nat) (x y : list Q),
    Forall (fun p => fst p < snd p) dims -> in_qbox dims x -> in_qbox dims y ->
    StronglySorted lt xpos -> StronglySorted lt ypos -> length xpos = length ypos ->
    Forall (fun i => (i < length dims)%nat) xpos -> Forall (fun i => (i < length dims)%nat) ypos ->
    exists a b, cut_and_paste dims xpos ypos xi yi x y = Some (a, b) /\
      length a = length x /\ length b = length y /\ in_qbox dims a /\ in_qbox dims b.
Proof. exact cut_and_paste_ok. Qed.
Print Assumptions C20_cut_and_paste.

Theorem C20_copy_and_paste :
  forall (dims : list (Q * Q)) (xpos ypos : list nat) (xi yi : nat) (x y : list Q),
    Forall (fun p => fst p < snd p) dims -> in_qbox dims x -> in_qbox dims y ->
    Forall (fun i => (i < length dims)%nat) xpos -> Forall (fun i => (i < length dims)%nat) ypos ->
    exists a b, copy_and_paste dims xpos ypos xi yi x y = Some (a, b) /\
      length a = length x /\ length b = length y /\ in_qbox dims a /\ in_qbox dims b.
Proof. exact copy_and_paste_ok. Qed.
Print Assumptions C20_copy_and_paste.

(** The encoding used to move genes between dimensions loses nothing. *)
Theorem C20_encoding_lossless :
  forall (dims : list (Q * Q)), Forall (fun p => fst p < snd p) dims ->
    forall x, length x = length dims ->
    exists r x', convert_to_ratio dims x = Some r /\ decode_ratio dims r = Some x' /\
                 Forall2 Qeq x' x.
Proof. exact decode_convert. Qed.
Print Assumptions C20_encoding_lossless.

Example C20_example :
  exists a b,
    cut_and_paste [(1, 5); (0, 2); (1, 5); (1, 5)] [0; 2]%nat [1; 3]%nat 1%nat 2%nat
                  [3; 2; 1; 5] [4; 1; 2; 3] = Some (a, b) /\
    Forall2 Qeq a [5; 1; 3; 5] /\ Forall2 Qeq b [4; 1 # 2; 3; 1].
Proof. eexists _, _. split; [reflexivity|]. split; repeat constructor. Qed.

(** C21 *)
Theorem C21_gen_population :
  forall (u : nat -> nat -> Q) (count : nat) (dims : list (Q * Q)),
    Forall (fun p => fst p <= snd p) dims -> (forall k i, 0 <= u k i /\ u k i <= 1) ->
    length (gen_population u count dims) = count /\
    Forall (fun v => length v = length dims /\ in_qbox dims v) (gen_population u count dims).
Proof. exact gen_population_ok. Qed.
Print Assumptions C21_gen_population.

(** Every coordinate of every individual is placed by a draw of its own, anywhere between the bounds. *)
Theorem C21_own_draws :
  forall (u : nat -> nat -> Q) (count : nat) (dims : qbox) (k j : nat) (a b : Q),
    (k < count)%nat -> nth_error dims j = Some (a, b) ->
    exists v x, nth_error (gen_population u count dims) k = Some v /\ nth_error v j = Some x /\
      x == a + (b - a) * u k j.
Proof.
  intros u count dims k j a b Hk H. destruct (gen_population_nth u count dims k j a b Hk H) as (v & Ev & Ej).
  exists v. eexists. split; [exact Ev|]. split; [exact Ej|]. reflexivity.
Qed.
Print Assumptions C21_own_draws.

Example C21_example :
  Forall2 (Forall2 Qeq) (gen_population (fun k i => if (k =? i)%nat then 1 # 2 else 0) 2 [(0, 2); (1, 5)])
    [[1; 1]; [0; 3]].
Proof. repeat constructor. Qed.
