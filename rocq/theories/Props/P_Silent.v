(** GENERATED by tools/gen_props.py from Proofs/T_Silent.v: statements only. *)

(** C97: connected is not accepted - silent clients over QUIC. *)
From Coq Require Import List NArith.
From Verif Require Import Model.Base Model.Map Model.Stats Model.RepDriver Model.PubDriver Model.QuicStream Model.QuicDriver
  Spec.RepSpec Spec.PubSpec Spec.SilentSpec.
Import ListNotations.
Open Scope N_scope.
From Verif Require Import Proofs.T_Silent.

(** C97 (what the server learns): in every history of a QUIC connection the server's accept future gives the connection only after the client has written at least one byte on it or has ended its stream. *)
Theorem C97_accepted_after_first_byte :
  forall evs l log before after, ql_run ql_init evs = (l, log) -> log = before ++ LAccepted :: after -> spoke before.
Proof. exact C97_accepted_after_first_byte_pf. Qed.
Print Assumptions C97_accepted_after_first_byte.

(** C97 is violated over QUIC: a client whose connect() has succeeded may stay unknown to the server for ever: as long as it writes nothing, no history makes the server's accept future give the connection, and unless the connection is lost the future does not end at all. *)
Theorem C97_silent_client_unknown_refuted :
  (exists evs l log, silent evs /\ ql_run ql_init evs = (l, log) /\ In LConnected log /\ ~ In LLost evs)
  /\ forall evs l log, silent evs -> ql_run ql_init evs = (l, log) ->
     ~ In LAccepted log /\ (In LConnected log -> ~ In LLost evs -> ~ In LAcceptErr log).
Proof. exact C97_silent_client_unknown_refuted_pf. Qed.
Print Assumptions C97_silent_client_unknown_refuted.

(** C97 (what holds): a client that has spoken on a connection that is not lost becomes known: whatever happened before, once what it sent has been delivered the next look at the accept future gives the connection, if it has not done so before. *)
Theorem C97_heard_client_accepted_partial :
  forall evs l log, ql_run ql_init evs = (l, log) -> spoke log -> ~ In LLost evs -> ~ In LAccepted log ->
  exists l' , ql_run l [LDeliver; LServerPoll] = (l', [LAccepted]).
Proof. exact C97_heard_client_accepted_partial_pf. Qed.
Print Assumptions C97_heard_client_accepted_partial.

(** C97 is violated by the reply socket, with or without an authenticator: connections whose accept futures do not complete (silent clients, over QUIC) keep their places.  Of the connections that arrive exactly the first max_clients are admitted, every other one is turned away, and no client is ever served. *)
Theorem C97_reply_silent_clients_refuted :
  forall m min auth co D evs s log, m < 2 ^ 64 -> rep_none_completes evs ->
  rp_run (Some m) min auth co D rp_init evs = (s, log) ->
  rep_admitted log = N.min m (rep_arriving evs) /\ rep_refused log = rep_arriving evs - m
  /\ (forall x, In x log -> match x with RAccepted _ | RRefused | RSocketDropped => True | _ => False end).
Proof. exact C97_reply_silent_clients_refuted_pf. Qed.
Print Assumptions C97_reply_silent_clients_refuted.

(** C97 is violated by the publisher, with or without an authenticator: in the same way. *)
Theorem C97_publisher_silent_clients_refuted :
  forall m buf min auth co evs s log, m < 2 ^ 64 -> pub_none_completes evs ->
  pb_run (Some m) buf min auth co pb_init evs = (s, log) ->
  pub_admitted log = N.min m (pub_arriving evs) /\ pub_refused log = pub_arriving evs - m
  /\ (forall x, In x log -> match x with QAccepted _ | QRefused | QPublished _ | QPublishErr | QClosed => True | _ => False end).
Proof. exact C97_publisher_silent_clients_refuted_pf. Qed.
Print Assumptions C97_publisher_silent_clients_refuted.

(** C97 is violated, the whole system: a reply socket or publisher listens on QUIC, with or without an authenticator, and every client that connects keeps its connection and writes nothing.  Whatever else happens and however often the futures are polled, exactly the first max_clients connections are admitted, every other one is turned away, and nobody is ever served. *)
Theorem C97_silent_clients_hold_places_refuted :
  (forall m min auth co D addr evs y log, m < 2 ^ 64 -> all_silent evs -> rep_quic (Some m) min auth co D addr (rp_init, []) evs = (y, log) ->
     rep_admitted log = N.min m (arriving evs) /\ rep_refused log = arriving evs - m
     /\ (forall x, In x log -> match x with RAccepted _ | RRefused | RSocketDropped => True | _ => False end))
  /\ (forall m buf min auth co evs y log, m < 2 ^ 64 -> all_silent evs -> pub_quic (Some m) buf min auth co (pb_init, []) evs = (y, log) ->
     pub_admitted log = N.min m (arriving evs) /\ pub_refused log = arriving evs - m
     /\ (forall x, In x log -> match x with QAccepted _ | QRefused | QPublished _ | QPublishErr | QClosed => True | _ => False end)).
Proof. exact C97_silent_clients_hold_places_refuted_pf. Qed.
Print Assumptions C97_silent_clients_hold_places_refuted.

Example C97_example :
  (* connected, silent, polled again and again *)
  snd (ql_run ql_init [LServerPoll; LHandshake true; LClientPoll; LServerPoll; LDeliver; LWrite 0; LDeliver; LServerPoll]) = [LConnected; LWrote 0]
  (* the first byte *)
  /\ snd (ql_run ql_init [LHandshake true; LClientPoll; LServerPoll; LWrite 1; LServerPoll; LDeliver; LServerPoll]) = [LConnected; LWrote 1; LAccepted]
  (* three clients, two places *)
  /\ (forall D, snd (rp_run (Some 2) 0 None None D rp_init [VAccept; VAccept; VRecv; VAccept; VDropSocket]) = [RAccepted 0; RAccepted 1; RRefused; RSocketDropped])
  /\ snd (pb_run (Some 1) 4 0 None None pb_init [WAccept; WAccept]) = [QAccepted 0; QRefused]
  (* over QUIC, one place: a silent client, then a second one; and a client that writes *)
  /\ (forall D, snd (rep_quic (Some 1) 0 None None D (fun _ => 7) (rp_init, []) [DArrive; DLink 0 (LHandshake true); DLink 0 LClientPoll; DPoll 0; DArrive; DLink 0 LDeliver; DPoll 0]) = [RAccepted 0; RRefused])
  /\ (forall D, snd (rep_quic (Some 1) 0 None None D (fun _ => 7) (rp_init, []) [DArrive; DLink 0 (LHandshake true); DLink 0 LClientPoll; DPoll 0; DLink 0 (LWrite 5); DLink 0 LDeliver; DPoll 0]) = [RAccepted 0; ROpen 0 7])
  /\ snd (pub_quic (Some 1) 4 0 None None (pb_init, []) [DArrive; DLink 0 (LHandshake true); DLink 0 LClientPoll; DPoll 0; DLink 0 (LWrite 5); DLink 0 LDeliver; DPoll 0]) = [QAccepted 0; QOpen 0].
Proof. exact C97_example_pf. Qed.

