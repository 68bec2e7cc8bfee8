(** Specification: where each option of a driver's configuration comes from. *)
Require Import String Ascii List.
From Verif Require Import ConfModel.
Import ListNotations.
Open Scope string_scope.

Section Spec.
  Context {V : Type}.

  (** A layer is a dictionary that may be missing. *)
  Definition layer := option (list (string * val V)).

  Definition supplies (l : layer) (k : string) (v : val V) : Prop :=
    exists d, l = Some d /\ In (k, v) d.

  Definition silent (l : layer) (k : string) : Prop :=
    forall d v, l = Some d -> ~ In (k, v) d.

  (** The value of [k] is [v], taken from the last layer that mentions [k]. *)
  Definition last_word (layers : list layer) (k : string) (v : val V) : Prop :=
    exists earlier l later,
      layers = (earlier ++ l :: later)%list /\ supplies l k v /\
      (forall l', In l' later -> silent l' k).

  (** The layers of driver [algo] running over the sub-drivers [subs] on [problem], from the
      weakest to the strongest.  [sub] is the layer with the sub-driver itself. *)
  Definition layers (w : world V) (hooks : string -> option (problem_mod V -> conf V))
    (algo : string) (subs : list string) (problem : string) (pm : problem_mod V)
    (sub : layer) : list layer :=
    let hook name := option_map (fun f => f pm) (hooks name) in
    let chain := String.concat "_" subs in
    [ Some [("dims", Plain (pm_dims pm)); ("fitnesses", Plain (pm_fitnesses pm))];
      sub;
      w_algo_base w (KName algo);
      w_algo_base w (KSubs algo subs);
      w_cust_base w [algo; problem];
      w_cust_base w (algo :: subs ++ [problem])%list;
      hook ("init_alg___" ++ algo);
      hook ("init_alg___" ++ algo ++ "__" ++ chain);
      hook ("init_alg___" ++ algo ++ "____" ++ problem);
      hook ("init_alg___" ++ algo ++ "__" ++ chain ++ "____" ++ problem) ].

  (** The options of one driver: each key once, each value from the last layer that has it;
      the population is drawn only when no layer supplies one. *)
  Definition options (w : world V) (hooks : string -> option (problem_mod V -> conf V))
    (problem : string) (pm : problem_mod V) (algo : string) (subs : list string)
    (sub : layer) (c : conf V) : Prop :=
    let ls := layers w hooks algo subs problem pm sub in
    NoDup (map fst c) /\
    (forall k v, k <> "population" -> (In (k, v) c <-> last_word ls k v)) /\
    (forall v, In ("population", v) c <->
       last_word ls "population" v \/
       ((forall l, In l ls -> silent l "population") /\
        v = Plain (w_population w subs pm))).

  (** [p] is the driver for the chain of names, configured as documented, and so are its
      sub-drivers. *)
  Inductive configured (w : world V) (hooks : string -> option (problem_mod V -> conf V))
    (problem : string) (pm : problem_mod V) : list string -> val V -> Prop :=
  | configured_leaf : forall algo c,
      options w hooks problem pm algo [] None c ->
      configured w hooks problem pm [algo] (Partial algo c)
  | configured_over : forall algo d subs inner c,
      configured w hooks problem pm (d :: subs) inner ->
      options w hooks problem pm algo (d :: subs)
        (Some [("driver", inner);
               ("driver_message_adapter_factory",
                Adapter d (d ++ algo ++ "MessageAdapter"))]) c ->
      configured w hooks problem pm (algo :: d :: subs) (Partial algo c).

  (** A dictionary has each key once. *)
  Definition is_dict (d : conf V) : Prop := NoDup (map fst d).

  (** The hooks only update the configuration with a dictionary computed from the problem, as
      every hook of run_config.py does, and all tables hold dictionaries.  A hook that ends in an
      AttributeError, which is suppressed, contributes what it had set by then. *)
  Record proper (w : world V) (hooks : string -> option (problem_mod V -> conf V))
    (pm : problem_mod V) : Prop := {
    pr_hooks : forall name,
      match w_hooks w name, hooks name with
      | None, None => True
      | Some h, Some u => forall c, h pm c = HDone (update c (u pm)) \/
                                    h pm c = HAttributeError (update c (u pm))
      | _, _ => False
      end;
    pr_hook_dicts : forall name u, hooks name = Some u -> is_dict (u pm);
    pr_algo_dicts : forall k d, w_algo_base w k = Some d -> is_dict d;
    pr_cust_dicts : forall k d, w_cust_base w k = Some d -> is_dict d
  }.

  (** Every class exists and every adjacent pair has its message adapter. *)
  Definition supported (w : world V) (names : list string) : Prop :=
    (forall a, In a names -> w_class w a = true) /\
    (forall before a d after, names = (before ++ a :: d :: after)%list ->
       w_adapter w d (d ++ a ++ "MessageAdapter") = true).

  (** * Calling a constructor with keyword arguments *)

  (** The parameters of a constructor; nothing else is accepted (what a driver collects as further keywords
      goes to [Driver.__init__], whose parameters are counted here too). *)
  Record signature : Type := { required : list string; optional : list string }.

  (** Calling the prepared class with the keywords [extra] binds every required parameter and no
      unknown one, and so does the call the object makes to create its own sub-driver, for
      which [calls] lists the keywords passed. *)
  Inductive constructible (sigs : string -> option signature) (calls : string -> list string)
    : list string -> val V -> Prop :=
  | constructible_intro : forall extra algo c s,
      sigs algo = Some s ->
      (forall k, In k (required s) -> In k (map fst c) \/ In k extra) ->
      (forall k, In k (map fst c) \/ In k extra ->
         In k (required s) \/ In k (optional s)) ->
      (forall inner, In ("driver", inner) c -> constructible sigs calls (calls algo) inner) ->
      constructible sigs calls extra (Partial algo c).

  (** A name as typed by the user between the plus signs. *)
  Fixpoint plain_name (s : string) : Prop :=
    match s with
    | EmptyString => True
    | String x r => x <> "+"%char /\ plain_name r
    end.
End Spec.
