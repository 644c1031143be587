(** GENERATED by tools/gen_props.py from Proofs/T_Wait.v: statements only. *)

(** C90: no work waits for ever behind other work. *)
From Coq Require Import List NArith Permutation.
From Verif Require Import Model.Base Model.Map Model.Stats Model.Backoff Model.Framed Model.WireReqRep Model.WirePubSub Model.WireAuth Model.Compression Model.Trie Model.Handshake Model.ReqDriver Model.RepDriver Model.PubDriver Model.JoinMap Model.SubDriver
  Spec.Wire Spec.Stream Spec.ReqSpec Spec.RepSpec Spec.PubSpec Spec.SubSpec Spec.WaitSpec.
Import ListNotations.
Open Scope N_scope.
From Verif Require Import Proofs.T_Wait.

(** C90 (request socket, what holds): while the connection works, a call waits for at most two turns of the task per call made before it and not yet written - plus one turn for each message the server sends meanwhile -
    whatever further calls are made: the frame written for it is then the one numbered [k] on the wire. *)
Theorem C90_request_turn_partial :
  forall o co D evs evs2 s log s2 log2 k c payload,
  rd_run o co D rd_init evs = (s, log) -> rd_run o co D s evs2 = (s2, log2) ->
  rd_done s = false -> rd_conn s = RActive -> ~ In EDrop (evs ++ evs2) -> Forall link_up (iters evs2) ->
  nth_error (issued evs) k = Some (c, payload) ->
  (2 * (k + 1) <= 2 * length (ReqSpec.handed log) + quiet_iters (iters evs2))%nat ->
  nth_error (ReqSpec.handed (log ++ log2)) k = Some (req_into_wire (N.of_nat k mod 2 ^ 32) (req_outgoing (ro_min_compress o) co payload)).
Proof. exact C90_request_turn_partial_pf. Qed.
Print Assumptions C90_request_turn_partial.

(** C90 (reply socket, what holds): a response the application has given is written to its client after at most two turns of this client per request received from it and not yet answered on the wire
    (counting requests received meanwhile), as long as its connection stays and takes frames - whatever other clients and the application do. *)
Theorem C90_response_turn_partial :
  forall max min auth co D evs evs2 s log s2 log2 cid addr rid req x,
  rp_run max min auth co D rp_init evs = (s, log) -> rp_run max min auth co D s evs2 = (s2, log2) ->
  In (RIncoming cid addr rid req) log -> In (RResponded rid x true) log -> compressible co x -> ~ In cid (ended (log ++ log2)) ->
  takes_frames addr evs2 ->
  (2 * length (requests_on cid (log ++ log2)) <= 2 * length (handed_on cid log) + peer_turns addr evs2)%nat ->
  exists m, In m (handed_on cid (log ++ log2)) /\ answers co D (log ++ log2) cid rid m.
Proof. exact C90_response_turn_partial_pf. Qed.
Print Assumptions C90_response_turn_partial.

(** C90 (reply socket): reading is not starved by answering either.  A client that always has a request to offer and takes every frame gets the next one read after at most two turns per request it has not been answered on the wire, plus one. *)
Theorem C90_reading_turn_partial :
  forall max min auth co D evs evs2 s log s2 log2 addr p,
  rp_run max min auth co D rp_init evs = (s, log) -> rp_run max min auth co D s evs2 = (s2, log2) ->
  mget addr (rp_peers s) = Some p -> pr_open p = true -> ~ In (pr_cid p) (ended log2) ->
  takes_frames addr evs2 -> offers_requests addr evs2 ->
  (2 * length (requests_on (pr_cid p) log) < 2 * length (handed_on (pr_cid p) log) + peer_turns addr evs2)%nat ->
  requests_on (pr_cid p) log2 <> [].
Proof. exact C90_reading_turn_partial_pf. Qed.
Print Assumptions C90_reading_turn_partial.

(** C90 (publisher, what holds): each message published since a session started is looked at by that session, or dropped by it as too old, after at most 2 * capacity + 2 turns at which its connection can take a frame, where capacity is
    session_buffer_size rounded up to a power of two - however much is published meanwhile. *)
Theorem C90_publication_turn_partial :
  forall max buf min auth co evs evs2 s log s2 log2 cid x before after i,
  pb_run max buf min auth co pb_init evs = (s, log) -> pb_run max buf min auth co s evs2 = (s2, log2) ->
  mget cid (pb_sess s) = Some x -> log = before ++ QOpen cid :: after -> blen (published before) <= i < blen (published log) -> ~ In cid (sub_ended log2) ->
  (2 * N.to_nat (bcast_cap buf) + 2 <= ready_polls cid evs2)%nat ->
  In (QTook cid i) (log ++ log2) \/ exists from to, In (QSkipped cid from to) (log ++ log2) /\ from <= i < to.
Proof. exact C90_publication_turn_partial_pf. Qed.
Print Assumptions C90_publication_turn_partial.

(** C90 (publisher): when nothing is published for a while, a subscription or cancellation sent by the subscriber is read after at most 2 * capacity + 3 such turns. *)
Theorem C90_control_turn_partial :
  forall max buf min auth co evs evs2 s log s2 log2 cid x,
  pb_run max buf min auth co pb_init evs = (s, log) -> pb_run max buf min auth co s evs2 = (s2, log2) ->
  mget cid (pb_sess s) = Some x -> pb_closed s = false -> ~ In cid (sub_ended log2) -> nothing_published evs2 -> offers_control cid evs2 ->
  (2 * N.to_nat (bcast_cap buf) + 3 <= ready_polls cid evs2)%nat ->
  exists m op, In (QControl cid m op) log2.
Proof. exact C90_control_turn_partial_pf. Qed.
Print Assumptions C90_control_turn_partial.

(** C90 is violated for subscriptions: while one message is published per turn, a session never reads what its subscriber sends.  For every [n]: a subscriber whose subscription has arrived before the first of [n] messages on its topic gets none
    of them in [n] turns - the connection being ready to take frames all the time -, the subscription still being unread. *)
Theorem C90_control_starves_refuted :
  forall n, exists s log, pb_run None 1024 0 None None pb_init [WAccept; WConn 0 (Some true)] = (s, log) /\ In (QOpen 0) log /\
  exists s2 log2, pb_run None 1024 0 None None s (concat (repeat [WPublish [x61] [x01]; WSession 0 (px_env (px_sub [x61]))] n)) = (s2, log2) /\
    length (published log2) = n /\ (forall i, i < N.of_nat n -> In (QTook 0 i) log2) /\
    (forall m op, ~ In (QControl 0 m op) log2) /\ sent_to 0 log2 = [].
Proof. exact C90_control_starves_refuted_pf. Qed.
Print Assumptions C90_control_starves_refuted.

(** C90 is violated for requests: reading goes first, without bound.  As long as the server sends a message - any message - at every turn of the task (turns at which tokio's budget is used up excepted), a connected request socket takes
    no request from its callers and times nothing out, however long this goes on and whatever calls are made; nor does it write a frame, except at the turns excepted. *)
Theorem C90_reading_first_refuted :
  forall o co D evs s log evs2 s2 log2,
  rd_run o co D rd_init evs = (s, log) -> rd_done s = false -> rd_conn s = RActive ->
  Forall (fun e => server_talks e \/ out_of_budget e) (iters evs2) ->
  rd_run o co D s evs2 = (s2, log2) ->
  ReqSpec.accepted log2 = [] /\ (forall t, ~ In (CheckedTimeouts t) log2) /\ (forall c, ~ In (Resolve c OTimeout) log2) /\
  (Forall server_talks (iters evs2) -> ReqSpec.handed log2 = []).
Proof. exact C90_reading_first_refuted_pf. Qed.
Print Assumptions C90_reading_first_refuted.

(** C90 is violated for connections: requests go first.  A turn of the reply socket's task that reads a request admits nobody: no connection is taken from the listener, none becomes a client, no handshake is answered. *)
Theorem C90_requests_before_connections_refuted :
  forall max min auth co D d s s' new r, rp_iter max min auth co D d s = (s', new, r) ->
  forall cid addr rid m, In (RIncoming cid addr rid m) new -> forall x, In x new -> ~ admits x.
Proof. exact C90_requests_before_connections_refuted_pf. Qed.
Print Assumptions C90_requests_before_connections_refuted.

(** C90 is violated for connections, concretely: for every [n], one client that keeps sending requests holds the task for [n] turns; all this time a connection that has been accepted does not become a client and the listener is
    not asked for the next one, which is waiting. *)
Theorem C90_accept_starves_refuted :
  forall n, exists s log, rp_run None 0 None None sx_D rp_init [VAccept; VConn 0 (Some (Some 7)); VAccept] = (s, log) /\ In (RAccepted 1) log /\
  exists s2 log2, rp_poll None 0 None None sx_D (repeat wx_env n) s = (s2, log2, false) /\ length (requests_on 0 log2) = n /\ forall x, In x log2 -> ~ admits x.
Proof. exact C90_accept_starves_refuted_pf. Qed.
Print Assumptions C90_accept_starves_refuted.

(** C90 (subscriber, what holds): the frame for the [k]-th subscription or cancellation passed to a session is handed to the connection after at most two turns of the session per command up to it - turns at which the publisher sends something do not
    count -, as long as the connection takes at least one frame per turn: at some point the frames handed over so far are exactly those of the first [j > k] commands. *)
Theorem C90_subscription_turn_partial :
  forall token ingress initial D evs evs2 s log s2 log2 cid k c,
  sb_run token ingress initial D sb_init evs = (s, log) -> sb_run token ingress initial D s evs2 = (s2, log2) ->
  nth_error (enqueued cid log) k = Some c ->
  ~ In (UEnd cid) (log ++ log2) -> ~ In (UCrash cid) (log ++ log2) -> sub_link_up cid evs2 ->
  (2 * Nat.max (k + 1) (length (SubSpec.got cid log)) <= length (SubSpec.got cid log) + length (wired cid log) + quiet_sess_turns cid evs2)%nat ->
  exists j w rest, (k < j)%nat /\ wired cid (log ++ log2) = w ++ rest /\
    Permutation (map ps_topic w) (map ctl_topic (firstn j (enqueued cid (log ++ log2)))).
Proof. exact C90_subscription_turn_partial_pf. Qed.
Print Assumptions C90_subscription_turn_partial.

(** C90 is violated for subscriptions on the subscriber's side too: reading goes first, without bound.  As long as the publisher sends a message at every turn of the session, no command is taken by the session and no frame is written. *)
Theorem C90_messages_first_refuted :
  forall token ingress initial D evs s log evs2 s2 log2 cid,
  sb_run token ingress initial D sb_init evs = (s, log) -> sb_run token ingress initial D s evs2 = (s2, log2) ->
  offers_messages cid evs2 -> SubSpec.got cid log2 = [] /\ wired cid log2 = [].
Proof. exact C90_messages_first_refuted_pf. Qed.
Print Assumptions C90_messages_first_refuted.

(** C90 is violated for the application's calls: messages go before commands.  For every [n]: while a publisher sends one message per turn, [n] turns of the subscriber's task leave a subscribe() call, made before, untouched
    in the queue. *)
Theorem C90_commands_starve_refuted :
  forall n, exists s log, sx_run (sx_open ++ [YApi (ApSub true [x62])]) = (s, log) /\ In (UApi (ApSub true [x62]) AOk) log /\
  exists s2 log2, busy_turns None 4 1000 sx_D 0 (sx_env (sx_msg x00 [x01])) (mkYd 5 [] None) n s = Some (s2, log2) /\
    length (received_on 0 log2) = n /\ commands log2 = [] /\ sb_cmdq s2 = [CSub [x62]].
Proof. exact C90_commands_starve_refuted_pf. Qed.
Print Assumptions C90_commands_starve_refuted.

(** Two calls, one of them written already; the server sends a message meanwhile; the second call's frame is number 1 on the wire. *)
Example C90_request_example :
  forall D, let r := rd_run ex_opts None D rd_init [EIter (ex_env 0); EIter (ex_env (20 * ms)); EIter (ex_conn (21 * ms) true); EReq 7 [x68]; EReq 8 [x79]; EIter (ex_env (22 * ms)); EIter (ex_env (22 * ms))] in
  let evs2 := map EIter [ex_resp 9 [x00]; ex_env (22 * ms); ex_env (22 * ms)] in let q := rd_run ex_opts None D (fst r) evs2 in
  rd_done (fst r) = false /\ rd_conn (fst r) = RActive /\ Forall link_up (iters evs2) /\ length (ReqSpec.handed (snd r)) = 1%nat /\ quiet_iters (iters evs2) = 2%nat /\ length (ReqSpec.handed (snd r ++ snd q)) = 2%nat.
Proof. exact C90_request_example_pf. Qed.

(** The server talks all the time: three messages, and the two calls made before stay where they are. *)
Example C90_reading_first_example :
  forall D, let r := rd_run ex_opts None D rd_init [EIter (ex_env 0); EIter (ex_env (20 * ms)); EIter (ex_conn (21 * ms) true); EReq 7 [x68]; EReq 8 [x79]] in
  let q := rd_run ex_opts None D (fst r) (map EIter [ex_resp 9 [x00]; ex_resp 10 [x00]; ex_resp 11 [x00]]) in
  rd_done (fst r) = false /\ rd_conn (fst r) = RActive /\ snd q = [] /\ length (rd_cmds (fst q)) = 2%nat.
Proof. exact C90_reading_first_example_pf. Qed.

(** One client with two requests, the second of which has been answered: four turns are enough. *)
Example C90_response_example :
  let evs := [VAccept; VConn 0 (Some (Some 7)); VPeer 7 (rx_penv (NxMsg (rr_new 3 x00 [x41]))); VPeer 7 (rx_penv (NxMsg (rr_new 4 x00 [x42]))); VRecv; VRecv; VRespond 1 [x62]] in
  let r := rp_run None 0 None None sx_D rp_init evs in let evs2 := repeat (VPeer 7 (rx_penv NxPending)) 4 in let q := rp_run None 0 None None sx_D (fst r) evs2 in
  In (RResponded 1 [x62] true) (snd r) /\ takes_frames 7 evs2 /\ length (requests_on 0 (snd r ++ snd q)) = 2%nat /\ peer_turns 7 evs2 = 4%nat /\ length (handed_on 0 (snd q)) = 1%nat.
Proof. exact C90_response_example_pf. Qed.

(** The same client offers a third request at every turn: it is read at the third turn, after the answer has been queued and written. *)
Example C90_reading_example :
  let evs := [VAccept; VConn 0 (Some (Some 7)); VPeer 7 (rx_penv (NxMsg (rr_new 3 x00 [x41]))); VPeer 7 (rx_penv (NxMsg (rr_new 4 x00 [x42]))); VRecv; VRecv; VRespond 1 [x62]] in
  let r := rp_run None 0 None None sx_D rp_init evs in let evs2 := repeat (VPeer 7 (rx_penv (NxMsg (rr_new 5 x00 [x43])))) 3 in let q := rp_run None 0 None None sx_D (fst r) evs2 in
  takes_frames 7 evs2 /\ offers_requests 7 evs2 /\ requests_on 0 (snd (rp_run None 0 None None sx_D (fst r) (firstn 2 evs2))) = [] /\ requests_on 0 (snd q) = [2].
Proof. exact C90_reading_example_pf. Qed.

(** A session with room for two messages, three published: it skips the first, takes the others, and reads the subscriber's frame after that. *)
Example C90_publication_example :
  let r := pb_run None 2 0 None None pb_init [WAccept; WConn 0 (Some true); WPublish [x61] [x01]; WPublish [x61] [x02]; WPublish [x61] [x03]] in
  let evs2 := repeat (WSession 0 (px_env (px_sub [x61]))) 7 in let q := pb_run None 2 0 None None (fst r) evs2 in
  ready_polls 0 evs2 = 7%nat /\ N.to_nat (bcast_cap 2) = 2%nat /\ mem 0 (pb_sess (fst r)) = true /\ pb_closed (fst r) = false /\ offers_control 0 evs2 /\ nothing_published evs2 /\
  In (QSkipped 0 0 1) (snd q) /\ In (QTook 0 1) (snd q) /\ In (QTook 0 2) (snd q) /\ exists m op, In (QControl 0 m op) (snd q).
Proof. exact C90_publication_example_pf. Qed.

(** Two topics are subscribed; the connection takes one frame per turn; four quiet turns, with a message from the publisher in between. *)
Example C90_subscription_example :
  let r := sx_run (sx_open ++ [YApi (ApSub true [x62]); YCommand]) in
  let one := mkYenv true PnPending [SaOk] 5 in
  let evs2 := [YSess 0 one; YSess 0 one; YSess 0 (mkYenv true (sx_msg x00 [x01]) [SaOk] 5); YSess 0 one; YSess 0 one] in
  let q := sb_run None 4 1000 sx_D (fst r) evs2 in
  nth_error (enqueued 0 (snd r)) 1 = Some (SSub [x62]) /\ sub_link_up 0 evs2 /\ quiet_sess_turns 0 evs2 = 4%nat /\ SubSpec.got 0 (snd r) = [] /\ wired 0 (snd r) = [] /\
  map ps_topic (wired 0 (snd q)) = map ctl_topic [SSub [x61]; SSub [x62]].
Proof. exact C90_subscription_example_pf. Qed.

