(** Property theorems C07-C10: dominance, Pareto layers, non-dominated filter. *)
From Verif Require Import Spec Base DomModel DomProofs.
Local Open Scope Z_scope.

(** C07 *)
Theorem C07_domination_cmp :
  forall xs ys : vec, length xs = length ys ->
    (domination_cmp xs ys = 1 <-> pareto_dom xs ys) /\
    (domination_cmp xs ys = -1 <-> pareto_dom ys xs) /\
    (domination_cmp xs ys = 0 <-> ~ pareto_dom xs ys /\ ~ pareto_dom ys xs) /\
    domination_cmp ys xs = - domination_cmp xs ys.
Proof. exact domination_cmp_full. Qed.
Print Assumptions C07_domination_cmp.

Theorem C07_dominates_strict_order :
  (forall a : vec, dominates a a = false) /\
  (forall a b : vec, dominates a b = true -> dominates b a = false) /\
  (forall a b c : vec, length a = length b -> length b = length c ->
     dominates a b = true -> dominates b c = true -> dominates a c = true).
Proof. exact (conj dominates_irrefl (conj dominates_asym dominates_trans)). Qed.
Print Assumptions C07_dominates_strict_order.

Example C07_example :
  domination_cmp [1; 2; 3] [1; 4; 3] = 1 /\ domination_cmp [1; 4] [0; 4] = -1 /\
  domination_cmp [1; 4] [2; 3] = 0 /\ dominates [0; 0] [1; 0] = true /\ dominates [1; 0] [1; 5] = true.
Proof. repeat split. Qed.

(** C08 *)
Theorem C08_dominance_tests_agree :
  forall a b : vec, length a = length b ->
    (dominates a b = true <-> pareto_dom a b) /\
    nsga_dominates a b = dominates a b /\
    omopso_dominates 0 1 a b = Some (dominates a b).
Proof. exact dominance_tests_agree. Qed.
Print Assumptions C08_dominance_tests_agree.

(** OMOPSO's test takes a tolerance eta = en / ed: self dominates p2 when no objective of self exceeds
    (1 + eta) times that of p2 and some objective is below it. *)
Theorem C08_tolerance :
  forall (en ed : Z) (self p2 : vec), 0 < ed -> 0 <= en -> length self = length p2 ->
    exists b, omopso_dominates en ed self p2 = Some b /\
      (b = true <-> Forall2 (fun s p => s * ed <= p * (ed + en)) self p2 /\
         exists i s p, nth_error self i = Some s /\ nth_error p2 i = Some p /\ s * ed < p * (ed + en)).
Proof.
  intros en ed self p2 _ _ L. destruct (omopso_eta en ed self p2 false L) as (b & E & H).
  exists b. split; [exact E|]. rewrite H. split; [intros (F & [D|D]); [discriminate | auto] | tauto].
Qed.
Print Assumptions C08_tolerance.

Example C08_tolerance_example :
  omopso_dominates 75 10000 [1007; 990] [1000; 1000] = Some true /\
  omopso_dominates 75 10000 [1008; 990] [1000; 1000] = Some false.
Proof. split; reflexivity. Qed.

Example C08_example :
  omopso_dominates 0 1 [1; 2] [1; 3] = Some true /\ nsga_dominates [1; 2] [1; 3] = true /\
  omopso_dominates 0 1 [1; 3] [2; 2] = Some false.
Proof. repeat split. Qed.

(** C09 - stated with plain membership, position and multiset notions. *)
Theorem C09_paretofront_layers :
  forall (A : Type) (fit : A -> vec) (d : nat) (lst : list A),
    all_dim d fit lst ->
    exists layers,
      paretofront_layers fit lst = Some layers /\
      Permutation (concat layers) lst /\
      Forall (fun layer => layer <> []) layers /\
      (forall first, nth_error layers 0 = Some first ->
         forall x, In x first <-> In x lst /\ nondominated_in fit lst x) /\
      (forall k layer x, nth_error layers k = Some layer -> In x layer ->
         nondominated_in fit (concat (skipn k layers)) x) /\
      (forall k upper lower x, nth_error layers k = Some upper ->
         nth_error layers (S k) = Some lower -> In x lower ->
         exists y, In y upper /\ pareto_dom (fit y) (fit x)).
Proof. exact paretofront_layers_correct. Qed.
Print Assumptions C09_paretofront_layers.

Example C09_example :
  paretofront_layers id [[1; 4]; [2; 5]; [4; 1]; [3; 6]; [1; 4]] =
    Some [[[1; 4]; [4; 1]; [1; 4]]; [[2; 5]]; [[3; 6]]]
  /\ all_dim 2 id [[1; 4]; [2; 5]; [4; 1]; [3; 6]; [1; 4]].
Proof.
  split; [reflexivity|]. intros x H. simpl in H. intuition (subst; reflexivity).
Qed.

(** C10 - [P] is any decision procedure for "no member dominates x": the result is the
    input with exactly the dominated members left out, order and multiplicity kept. *)
Theorem C10_filter_not_dominated_exact :
  forall (A : Type) (f : A -> vec) (d : nat) (l : list A) (P : A -> bool),
    all_dim d f l ->
    (forall x, In x l -> (P x = true <-> nondominated_in f l x)) ->
    filter_not_dominated f l = filter P l.
Proof. exact (fun A f d l P => filter_nd_spec f d l P). Qed.
Print Assumptions C10_filter_not_dominated_exact.

Theorem C10_filter_not_dominated_order_insensitive :
  forall (A : Type) (f : A -> vec) (d : nat) (l l' : list A),
    all_dim d f l -> Permutation l l' ->
    Permutation (filter_not_dominated f l) (filter_not_dominated f l').
Proof. exact (fun A f d l l' => filter_not_dominated_perm f d l l'). Qed.
Print Assumptions C10_filter_not_dominated_order_insensitive.

Theorem C10_filter_not_dominated_members :
  forall (A : Type) (f : A -> vec) (d : nat) (l : list A), all_dim d f l ->
    (forall x, In x (filter_not_dominated f l) <-> In x l /\ nondominated_in f l x) /\
    filter_not_dominated f (filter_not_dominated f l) = filter_not_dominated f l.
Proof. exact filter_not_dominated_members. Qed.
Print Assumptions C10_filter_not_dominated_members.

(** The second implementation returns the same set, each vector once. *)
Theorem C10_filter_not_dominated2 :
  forall (d : nat) (l : list vec), all_dim d id l ->
    NoDup (filter_not_dominated2 l) /\
    forall v, In v (filter_not_dominated2 l) <-> In v l /\ nondominated_in id l v.
Proof. exact filter_not_dominated2_spec. Qed.
Print Assumptions C10_filter_not_dominated2.

Example C10_example :
  filter_not_dominated id [[3; 3]; [1; 4]; [2; 2]; [1; 4]; [2; 5]] = [[1; 4]; [2; 2]; [1; 4]] /\
  filter_not_dominated2 [[3; 3]; [1; 4]; [2; 2]; [1; 4]; [2; 5]] = [[1; 4]; [2; 2]].
Proof. split; reflexivity. Qed.
