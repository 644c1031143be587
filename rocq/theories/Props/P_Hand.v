(** GENERATED by tools/gen_props.py from Proofs/T_Hand.v: statements only. *)

(** C91: an unfinished handshake does not hold a place for ever. *)
From Coq Require Import List NArith.
From Verif Require Import Model.Base Model.Map Model.Stats Model.Backoff Model.Framed Model.WireReqRep Model.WirePubSub Model.WireAuth Model.Compression Model.Trie Model.Handshake Model.ReqDriver Model.RepDriver Model.PubDriver Model.JoinMap Model.SubDriver
  Spec.Wire Spec.Stream Spec.AuthSpec Spec.ReqSpec Spec.RepSpec Spec.PubSpec Spec.SubSpec Spec.HandSpec.
Import ListNotations.
Open Scope N_scope.
From Verif Require Import Proofs.T_Hand.

(** C91 is violated by the reply socket: as many clients as it may serve at once connect and then send nothing (or no more than three bytes).  Each of them keeps its place for ever: whatever happens
    afterwards - as long as they stay silent - every further client is turned away, nobody is served, and the server itself ends none of the silent connections (there is no time limit on a handshake). *)
Theorem C91_reply_silent_clients_refuted :
  forall m min a co D addrs evs2 s log s2 log2,
  m < 2 ^ 64 -> blen addrs = m ->
  rp_run (Some m) min (Some a) co D rp_init (rep_arrivals addrs) = (s, log) ->
  rep_stalled evs2 -> rp_run (Some m) min (Some a) co D s evs2 = (s2, log2) ->
  blen (RepSpec.live log) = m /\ (forall c ad, ~ In (ROpen c ad) log) /\
  RepSpec.live (log ++ log2) = RepSpec.live log /\
  (forall x, In x log2 -> x = RRefused \/ x = RSocketDropped) /\
  length (filter (fun x => match x with RRefused => true | _ => false end) log2) = length (filter (fun ev => match ev with VAccept => true | _ => false end) evs2).
Proof. exact C91_reply_silent_clients_refuted_pf. Qed.
Print Assumptions C91_reply_silent_clients_refuted.

(** C91 (reply socket, what holds): a handshake that fails - the client is refused, closes its connection or sends garbage - gives its place back at once, as does a served client that leaves: right afterwards a new client is admitted. *)
Theorem C91_reply_place_given_back_partial :
  forall m min auth co D evs s log ev s1 o1 c,
  m < 2 ^ 64 -> rp_run (Some m) min auth co D rp_init evs = (s, log) ->
  rp_act (Some m) min auth co D s ev = (s1, o1) -> In (RGone c) o1 ->
  exists c', snd (rp_act (Some m) min auth co D s1 VAccept) = [RAccepted c'].
Proof. exact C91_reply_place_given_back_partial_pf. Qed.
Print Assumptions C91_reply_place_given_back_partial.

(** C91 is violated by the publisher: as many subscribers as it may serve at once connect and then send nothing (or no more than three bytes).  As long as they stay silent every further subscriber is
    turned away, nobody gets a session, and whatever is published reaches nobody. *)
Theorem C91_publisher_silent_subscribers_refuted :
  forall n buf min a co evs2 s log s2 log2,
  N.of_nat n < 2 ^ 64 ->
  pb_run (Some (N.of_nat n)) buf min (Some a) co pb_init (pub_arrivals n) = (s, log) ->
  pub_stalled evs2 -> pb_run (Some (N.of_nat n)) buf min (Some a) co s evs2 = (s2, log2) ->
  length (sub_live log) = n /\ (forall c, ~ In (QOpen c) log) /\
  sub_live (log ++ log2) = sub_live log /\
  (forall x, In x log2 -> match x with QRefused | QPublished _ | QPublishErr | QClosed => True | _ => False end) /\
  length (filter (fun x => match x with QRefused => true | _ => false end) log2) = length (filter (fun ev => match ev with WAccept => true | _ => false end) evs2).
Proof. exact C91_publisher_silent_subscribers_refuted_pf. Qed.
Print Assumptions C91_publisher_silent_subscribers_refuted.

(** C91 (publisher, what holds): a handshake that fails gives its place back at once, as does a session that ends: right afterwards a new subscriber is admitted. *)
Theorem C91_publisher_place_given_back_partial :
  forall m buf min auth co evs s log ev s1 o1 c,
  m < 2 ^ 64 -> pb_run (Some m) buf min auth co pb_init evs = (s, log) ->
  pb_act (Some m) buf min auth co s ev = (s1, o1) -> In (QGone c) o1 \/ In (QCrashed c) o1 ->
  exists c', snd (pb_act (Some m) buf min auth co s1 WAccept) = [QAccepted c'].
Proof. exact C91_publisher_place_given_back_partial_pf. Qed.
Print Assumptions C91_publisher_place_given_back_partial.

(** C91 is violated by the request socket: once the transport has connected and the token is sent, a server that does not answer keeps the socket waiting for ever.  Whatever calls are made and however much time passes,
    no other connection attempt is made, no request is written and none times out: calls can only end with "socket closed" (which happens when the back-off, which runs on meanwhile, gives up). *)
Theorem C91_request_silent_server_refuted :
  forall o co D evs s log token evs2 s2 log2,
  rd_run o co D rd_init evs = (s, log) -> rd_done s = false -> attempt_open log = true ->
  req_stalled token evs2 -> rd_run o co D s evs2 = (s2, log2) ->
  forall x, In x log2 -> exists c, x = Resolve c OClosed.
Proof. exact C91_request_silent_server_refuted_pf. Qed.
Print Assumptions C91_request_silent_server_refuted.

(** C91 is violated by the subscriber: once an attempt has got as far as the handshake, a publisher that does not answer blocks its address for ever: no new attempt is made for it - not by the back-off, and not after
    disconnect() and connect() either - and no connection comes of it. *)
Theorem C91_subscriber_silent_publisher_refuted :
  forall token ingress initial D evs s log a evs2 s2 log2,
  sb_run (Some token) ingress initial D sb_init evs = (s, log) ->
  attempts a log = S (attempts_ended a log) ->
  sub_stalled evs2 -> sb_run (Some token) ingress initial D s evs2 = (s2, log2) ->
  ~ In (UConnect a) log2 /\ (forall cid b, ~ In (UOpen cid b) log2).
Proof. exact C91_subscriber_silent_publisher_refuted_pf. Qed.
Print Assumptions C91_subscriber_silent_publisher_refuted.

(** Room for two: two silent clients (one has sent a byte), then two more try to get in. *)
Example C91_reply_example :
  forall a D, let r := rp_run (Some 2) 0 (Some a) None D rp_init (rep_arrivals [7; 9]) in
  let evs2 := [VAccept; VAuth 0 [IoData [x01]; IoPending] true; VAuth 1 [] true; VAccept] in
  rep_stalled evs2 /\ snd r = [RAccepted 0; RAccepted 1] /\ snd (rp_run (Some 2) 0 (Some a) None D (fst r) evs2) = [RRefused; RRefused].
Proof. exact C91_reply_example_pf. Qed.

(** One of them then closes its connection: its place is free. *)
Example C91_reply_given_back_example :
  forall a D, let r := rp_run (Some 2) 0 (Some a) None D rp_init (rep_arrivals [7; 9]) in
  let q := rp_act (Some 2) 0 (Some a) None D (fst r) (VAuth 0 [IoData [x01]; IoPending; IoData []] true) in
  In (RGone 0) (snd q) /\ snd (rp_act (Some 2) 0 (Some a) None D (fst q) VAccept) = [RAccepted 2].
Proof. exact C91_reply_given_back_example_pf. Qed.

Example C91_publisher_example :
  forall a, let r := pb_run (Some 1) 8 0 (Some a) None pb_init (pub_arrivals 1) in
  let evs2 := [WAuth 0 [IoPending; IoData [x01; x00]; IoPending] true; WAccept; WPublish [x61] [x07]] in
  pub_stalled evs2 /\ snd r = [QAccepted 0] /\ (exists m, snd (pb_run (Some 1) 8 0 (Some a) None (fst r) evs2) = [QRefused; QPublished m]) /\
  (let q := pb_act (Some 1) 8 0 (Some a) None (fst r) (WAuth 0 [IoErr] true) in In (QGone 0) (snd q) /\ snd (pb_act (Some 1) 8 0 (Some a) None (fst q) WAccept) = [QAccepted 1]).
Proof. exact C91_publisher_example_pf. Qed.

(** The attempt starts after 20 ms; the server never answers; a call made meanwhile does not time out (timeout 5 s, 100 s pass). *)
Example C91_request_example :
  forall D, let r := rd_run ex_opts None D rd_init [EIter (ex_env 0); EIter (ex_env (20 * ms))] in
  let evs2 := [EReq 7 [x68]; EIter (ex_env (60 * ms)); EIter (ex_env (140 * ms)); EIter (ex_env (100000 * ms))] in
  snd r = [StartConnect] /\ rd_done (fst r) = false /\ attempt_open (snd r) = true /\ req_stalled [x01] evs2 /\ ro_timeout ex_opts < 100000 * ms /\
  snd (rd_run ex_opts None D (fst r) evs2) = [].
Proof. exact C91_request_example_pf. Qed.

(** connect; the publisher does not answer the handshake; disconnect and connect again: no new attempt. *)
Example C91_subscriber_example :
  let run := sb_run (Some [x01]) 4 1000 sx_D in
  let r := run sb_init [YApi (ApConnect true (Some sx_addr)); YCommand] in
  let evs2 := [YJoin 0 (JConn true [IoPending; IoData [x01]]) []; YApi (ApDisconnect true (Some sx_addr)); YCommand; YApi (ApConnect true (Some sx_addr)); YCommand; YEntry sx_addr 10; YEntry sx_addr 2000] in
  SubSpec.attempts sx_addr (snd r) = S (attempts_ended sx_addr (snd r)) /\ sub_stalled evs2 /\
  In (UReset sx_addr) (snd (run (fst r) evs2)) /\ ~ In (UConnect sx_addr) (snd (run (fst r) evs2)).
Proof. exact C91_subscriber_example_pf. Qed.

