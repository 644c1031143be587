(** GENERATED by tools/gen_props.py from Proofs/T_Calls.v: statements only. *)

(** C94: what the calls of a subscriber socket return. *)
From Coq Require Import List NArith.
From Verif Require Import Model.Base Model.Map Model.Stats Model.Framed Model.WirePubSub Model.WireAuth Model.Compression Model.Handshake Model.Utf8 Model.Backoff Model.JoinMap Model.PubDriver Model.SubDriver
  Spec.Utf8Spec Spec.ReqSpec Spec.SubSpec.
Import ListNotations.
Open Scope N_scope.
From Verif Require Import Proofs.T_Calls.

(** In every history, as long as the socket exists: a call returns ReservedTopic for a topic starting with "MSG", NoValidEndpoints when the address cannot be resolved or parsed,
    and otherwise succeeds iff fewer than 1024 commands of earlier calls are still to be processed; with 1024 the try_ form returns ChannelFull and the other form waits.
    A call that does not succeed (or has to wait) changes nothing; the command of a successful call is the last to be processed (C37: in order). *)
Theorem C94_results_of_calls :
  forall token ingress initial D evs s log f s' o,
  sb_run token ingress initial D sb_init evs = (s, log) -> ~ In UDropped log -> sb_act token ingress initial D s (YApi f) = (s', o) ->
  let r := call_result (waiting_commands log) f in
  o = [UApi f r] /\ (r <> AOk -> s' = s) /\ (r = AOk -> waiting_commands (log ++ o) = waiting_commands log + 1) /\ waiting_commands log <= 1024.
Proof. exact C94_results_of_calls_pf. Qed.
Print Assumptions C94_results_of_calls.

(** The socket with no running driver takes 1024 commands; the next try_ call is refused, the next plain call waits, a reserved topic and a bad address are reported; one command processed makes room for one. *)
Example C94_example :
  let q := repeat (YApi (ApSub true [x61])) 1024 in
  let more := [YApi (ApUnsub true [x62]); YApi (ApConnect false (Some (AV6 0 80 0 0))); YApi (ApSub true [x4d; x53; x47]); YApi (ApDisconnect true None); YCommand; YApi (ApConnect true (Some (AV6 0 80 0 0))); YApi (ApDisconnect true (Some (AV4 1 1)))] in
  let r := sx_run q in
  ~ In UDropped (snd r) /\ waiting_commands (snd r) = 1024 /\
  snd (sb_run None 4 1000 sx_D (fst r) more) =
    [UApi (ApUnsub true [x62]) AFull; UApi (ApConnect false (Some (AV6 0 80 0 0))) AWait; UApi (ApSub true [x4d; x53; x47]) AReserved; UApi (ApDisconnect true None) ANoEndpoint;
     UCmd (CSub [x61]); UApi (ApConnect true (Some (AV6 0 80 0 0))) AOk; UApi (ApDisconnect true (Some (AV4 1 1))) AFull] /\
  nth 1023 (sb_cmdq (fst (sb_run None 4 1000 sx_D (fst r) more))) CShutdown = CConnect (AV4 2130706433 80).
Proof. exact C94_example_pf. Qed.

