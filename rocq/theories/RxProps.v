(** C145: observables merged from several processes. *)
Require Import List Bool Arith Lia String.
From Verif Require Import RxModel RxSpec RxProofs.
Import ListNotations.

(** C145 - in whatever order the processes put their messages, each message is passed on exactly once, those of one
    provider in their order, and the merged observable completes exactly if all providers complete (if one fails, the
    subscriber waits for ever after the last message).  No provider may emit the string "end". *)
Theorem C145_merged_partial : forall M end_msg (is_end : M -> bool) providers arriving,
  is_end end_msg = true ->
  (forall p m, In p providers -> In m (emits M p) -> is_end m = false) ->
  interleaving (map (puts M end_msg) providers) arriving ->
  let r := multiprocess_observable M is_end providers arriving in
  interleaving (map (emits M) providers) (fst r) /\
  (snd r = true <-> forall p, In p providers -> completes M p = true).
Proof.
  intros M end_msg is_end ps q He Hm Hq. destruct (observable_ok M end_msg is_end He ps q Hm Hq) as [A B].
  cbv zeta. split; [exact B|]. rewrite A. apply forallb_forall.
Qed.
Print Assumptions C145_merged_partial.

(** With a provider that emits "end" messages of the others are lost, though all providers complete. *)
Theorem C145_any_message_refuted : exists providers arriving,
  (forall p, In p providers -> completes string p = true) /\
  interleaving (map (puts string "end"%string) providers) arriving /\
  multiprocess_observable string (String.eqb "end") providers arriving = ([], true) /\
  exists p m, In p providers /\ In m (emits string p) /\ m <> "end"%string.
Proof.
  exists [{| emits := ["end"%string]; completes := true |}; {| emits := ["result"%string]; completes := true |}],
    ["end"; "end"; "result"; "end"]%string.
  split; [|split; [|split; [reflexivity|]]].
  - intros p [<-|[<-|[]]]; reflexivity.
  - cbn. apply (one_of_them [] "end"%string ["end"%string] [["result"; "end"]%string]). cbn.
    apply (one_of_them [] "end"%string [] [["result"; "end"]%string]). cbn.
    apply (one_of_them [[]] "result"%string ["end"%string] []). cbn.
    apply (one_of_them [[]] "end"%string [] []). cbn. apply nothing_left. repeat constructor.
  - eexists _, "result"%string. split; [right; left; reflexivity|]. split; [now left|discriminate].
Qed.
Print Assumptions C145_any_message_refuted.

(** Two providers, one of which fails after two messages. *)
Example C145_example :
  let ps := [{| emits := ["a"; "b"]%string; completes := true |}; {| emits := ["x"; "y"]%string; completes := false |}] in
  interleaving (map (puts string "end"%string) ps) ["x"; "a"; "b"; "end"; "y"]%string /\
  multiprocess_observable string (String.eqb "end") ps ["x"; "a"; "b"; "end"; "y"]%string = (["x"; "a"; "b"; "y"]%string, false).
Proof.
  split; [|reflexivity]. cbn.
  apply (one_of_them [["a"; "b"; "end"]%string] "x"%string ["y"%string] []). cbn.
  apply (one_of_them [] "a"%string ["b"; "end"]%string [["y"%string]]). cbn.
  apply (one_of_them [] "b"%string ["end"]%string [["y"%string]]). cbn.
  apply (one_of_them [] "end"%string [] [["y"%string]]). cbn.
  apply (one_of_them [[]] "y"%string [] []). cbn. apply nothing_left. repeat constructor.
Qed.
