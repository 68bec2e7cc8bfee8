(** Property theorems C11, C12: non-dominated sorting. *)
From Verif Require Import Spec Base DomModel DomProofs NDSortModel NDSortProofs.

(** C11 - [inds] are the identities of the individuals, [obj] their objective vectors.
    Front number k+1 (position k) is exactly the set of individuals that no individual
    outside fronts 1..k dominates; together the fronts are the population. *)
Theorem C11_nsgaii_nd_sort :
  forall (obj : nat -> vec) (d : nat) (set_iter : nat -> list nat -> list nat) (inds : list nat),
    (forall x l, Permutation (set_iter x l) l) -> NoDup inds -> all_dim d obj inds ->
    exists fronts,
      nsgaii_nd_sort obj set_iter inds = Some fronts /\
      Permutation (concat fronts) inds /\
      Forall (fun f => f <> []) fronts /\
      (forall k front x, nth_error fronts k = Some front ->
         (In x front <->
          In x inds /\ ~ In x (concat (firstn k fronts)) /\
          (forall y, In y inds -> ~ In y (concat (firstn k fronts)) ->
             ~ pareto_dom (obj y) (obj x)))).
Proof. exact nsgaii_nd_sort_ok. Qed.
Print Assumptions C11_nsgaii_nd_sort.

Theorem C11_nsls_nd_sort :
  forall (obj : nat -> vec) (d : nat) (set_iter : nat -> list nat -> list nat) (inds : list nat),
    (forall x l, Permutation (set_iter x l) l) -> NoDup inds -> all_dim d obj inds ->
    exists fronts,
      nsls_nd_sort obj set_iter inds = Some fronts /\
      Permutation (concat fronts) inds /\
      Forall (fun f => f <> []) fronts /\
      (forall k front x, nth_error fronts k = Some front ->
         (In x front <->
          In x inds /\ ~ In x (concat (firstn k fronts)) /\
          (forall y, In y inds -> ~ In y (concat (firstn k fronts)) ->
             ~ pareto_dom (obj y) (obj x)))).
Proof. exact nsgaii_nd_sort_ok. Qed.
Print Assumptions C11_nsls_nd_sort.

Theorem C11_smsemoa_nd_sort :
  forall (obj : nat -> vec) (d : nat) (set_iter : nat -> list nat -> list nat) (inds : list nat),
    (forall x l, Permutation (set_iter x l) l) -> NoDup inds -> all_dim d obj inds ->
    exists fronts,
      smsemoa_nd_sort obj set_iter inds = Some fronts /\
      Permutation (concat fronts) inds /\
      Forall (fun f => f <> []) fronts /\
      (forall k front x, nth_error fronts k = Some front ->
         (In x front <->
          In x inds /\ ~ In x (concat (firstn k fronts)) /\
          (forall y, In y inds -> ~ In y (concat (firstn k fronts)) ->
             ~ pareto_dom (obj y) (obj x)))).
Proof. exact smsemoa_nd_sort_ok. Qed.
Print Assumptions C11_smsemoa_nd_sort.

(** nsga_rank[x] is the number of the front that holds x. *)
Theorem C11_rank_is_front_number :
  forall (obj : nat -> vec) (d : nat) (set_iter : nat -> list nat -> list nat) (inds : list nat)
         fronts k front x,
    (forall x l, Permutation (set_iter x l) l) -> NoDup inds -> all_dim d obj inds ->
    nsgaii_nd_sort obj set_iter inds = Some fronts ->
    nth_error fronts k = Some front -> In x front ->
    front_number fronts x = S k.
Proof. exact nsgaii_front_number. Qed.
Print Assumptions C11_rank_is_front_number.

Example C11_example :
  let obj := fun i => nth i [[1; 4]; [2; 5]; [4; 1]; [3; 6]; [1; 4]]%Z [] in
  nsgaii_nd_sort obj (fun _ l => rev l) [0; 1; 2; 3; 4] = Some [[0; 2; 4]; [1]; [3]] /\
  smsemoa_nd_sort obj (fun _ l => l) [4; 3; 2; 1; 0] = Some [[4; 2; 0]; [1]; [3]] /\
  all_dim 2 obj [0; 1; 2; 3; 4] /\ NoDup [0; 1; 2; 3; 4] /\
  (forall x l, Permutation ((fun (_ : nat) (l : list nat) => rev l) x l) l).
Proof.
  repeat split.
  - intros x H. simpl in H. intuition (subst; reflexivity).
  - repeat constructor; simpl; intuition discriminate.
  - intros x l. apply Permutation_sym, Permutation_rev.
Qed.

(** C12 - the front number minus one is the number of distinct smaller theta values among
    the members of the individual's own cluster. *)
Theorem C12_theta_sort :
  forall (cluster : nat -> nat) (theta : nat -> Z) (set_iter : nat -> list nat -> list nat)
         (inds : list nat),
    (forall x l, Permutation (set_iter x l) l) -> NoDup inds ->
    exists fronts,
      theta_nd_sort cluster theta set_iter inds = Some fronts /\
      Permutation (concat fronts) inds /\
      Forall (fun f => f <> []) fronts /\
      (forall k front x, nth_error fronts k = Some front ->
         (In x front <->
          In x inds /\
          k = length (nodup Z.eq_dec (map theta
                (filter (fun y => (cluster y =? cluster x) && (theta y <? theta x)%Z) inds))))).
Proof. exact theta_sort_ranks. Qed.
Print Assumptions C12_theta_sort.

Example C12_example :
  theta_nd_sort (fun i => i mod 2) (fun i => nth i [5; 3; 5; 1; 2; 3]%Z 0%Z) (fun _ l => rev l)
                [0; 1; 2; 3; 4; 5]
  = Some [[3; 4]; [5; 1; 2; 0]].
Proof. reflexivity. Qed.
