(** GENERATED by tools/gen_props.py from Proofs/T_Rep.v: statements only. *)

(** Reply socket: C21 .. C27 (reply side), C57 (reply driver), C58. *)
From Coq Require Import List NArith.
From Verif Require Import Model.Base Model.Map Model.Stats Model.Framed Model.WireReqRep Model.WireAuth Model.Compression Model.Handshake Model.ReqDriver Model.RepDriver
  Spec.Wire Spec.Stream Spec.AuthCuts Spec.ReqSpec Spec.RepSpec.
Import ListNotations.
Open Scope N_scope.
From Verif Require Import Proofs.T_Rep.

(** C22: in every history, the frames written to any connection [cid] answer pairwise different requests [rids], each of which arrived
    on that same connection and was responded to by the application; the frame has the request's id and decompresses to
    the response.  A request number belongs to one frame received on one connection, and gets at most one response. *)
Theorem C22_frames_answer_requests :
  forall max min auth co D evs s log,
  rp_run max min auth co D rp_init evs = (s, log) ->
  (forall cid, exists rids, NoDup rids /\ Forall2 (answers co D log cid) rids (handed_on cid log)) /\
  (forall c a r m c' a' m', In (RIncoming c a r m) log -> In (RIncoming c' a' r m') log -> c = c' /\ a = a' /\ m = m') /\
  (forall r x y, In (RResponded r x true) log -> In (RResponded r y true) log -> x = y).
Proof. exact C22_frames_answer_requests_pf. Qed.
Print Assumptions C22_frames_answer_requests.

(** C22: in every history, each accepted response to a request of connection [cid] has been made a frame answering it
    that was written to the connection or waits in its queue, or it is still to be made one by the (open) connection, or
    its compression failed, or the connection ended. *)
Theorem C22_every_response_accounted_for :
  forall max min auth co D evs s log cid addr rid req x,
  rp_run max min auth co D rp_init evs = (s, log) ->
  In (RIncoming cid addr rid req) log -> In (RResponded rid x true) log ->
  (exists m, In (RQueued cid rid m) log /\ answers co D log cid rid m /\ (In m (handed_on cid log) \/ frame_waits s cid m)) \/
  response_waits s cid rid \/ ~ compressible co x \/ In cid (ended log).
Proof. exact C22_every_response_accounted_for_pf. Qed.
Print Assumptions C22_every_response_accounted_for.

Example C22_example :
  forall D, let r := rp_run None 0 None None D rp_init rx_hist in
  handed_on 0 (snd r) = [rr_new 3 x00 [x61; x61]] /\ handed_on 1 (snd r) = [rr_new 3 x00 [x62]] /\
  In (RResponded 0 [x61; x61] true) (snd r) /\ In (RIncoming 0 7 0 (rr_new 3 x00 [x41])) (snd r).
Proof. exact C22_example_pf. Qed.

(** C23 is violated: the application answers one request and drops another one of the same client; the driver's poll
    takes the dropped one, finds nothing to read and goes idle (returns Pending), leaving the answer unsent. *)
Theorem C23_response_stranded_refuted :
  forall D, exists evs s log s' new,
  rp_run None 0 None None D rp_init evs = (s, log) /\ In (RResponded 1 [x62] true) log /\
  rp_poll None 0 None None D [rx_quiet] s = (s', new, true) /\
  response_waits s' 0 1 /\ handed_on 0 (log ++ new) = [].
Proof. exact C23_response_stranded_refuted_pf. Qed.
Print Assumptions C23_response_stranded_refuted.

(** C23 (what holds): if no request of the client was dropped (by the application or the socket), then when the driver
    goes idle each response given for a request of that client has been made a frame answering it - and that frame has
    been written, provided the connection accepted writes whenever asked during the poll - unless the response
    could not be compressed or the connection ended.  (A turn in which finished responses are not looked at because tokio's budget is used up
    is followed by another one, as the task is then woken at once: hence the fourth hypothesis.) *)
Theorem C23_response_not_stranded_partial :
  forall max min auth co D evs s log ds s' new cid addr rid req x,
  rp_run max min auth co D rp_init evs = (s, log) -> rp_poll max min auth co D ds s = (s', new, true) ->
  In (RIncoming cid addr rid req) (log ++ new) -> In (RResponded rid x true) (log ++ new) ->
  (forall d e, In d ds -> In e (d_peers d addr) -> p_pref e <> None) ->
  (forall a' r' m', In (RIncoming cid a' r' m') (log ++ new) -> ~ In (RLost r') (log ++ new) /\ ~ In (RDiscarded r') (log ++ new)) ->
  (exists m, answers co D (log ++ new) cid rid m /\ In (RQueued cid rid m) (log ++ new) /\
     ((forall d e, In d ds -> In e (d_peers d addr) -> p_ready e = true) -> In m (handed_on cid (log ++ new)))) \/
  ~ compressible co x \/ In cid (ended (log ++ new)).
Proof. exact C23_response_not_stranded_partial_pf. Qed.
Print Assumptions C23_response_not_stranded_partial.

Example C23_example :
  forall D, exists s log s' new,
  rp_run None 0 None None D rp_init (rx_start ++ [VRespond 1 [x62]]) = (s, log) /\ rp_poll None 0 None None D [rx_quiet] s = (s', new, true) /\
  In (RResponded 1 [x62] true) log /\ handed_on 1 log = [] /\ handed_on 1 (log ++ new) = [rr_new 3 x00 [x62]] /\ lost_rids (log ++ new) = [].
Proof. exact C23_example_pf. Qed.

(** C24 (reply socket): with max_clients = m, in every history at most m connections are being established or live at any time. *)
Theorem C24_reply_max_clients :
  forall m min auth co D evs s log,
  m < 2 ^ 64 -> rp_run (Some m) min auth co D rp_init evs = (s, log) -> blen (live log) <= m.
Proof. exact C24_reply_max_clients_pf. Qed.
Print Assumptions C24_reply_max_clients.

Example C24_reply_example :
  forall D, let r := rp_run (Some 2) 0 None None D rp_init (rx_hist ++ [VAccept; VPeer 7 (rx_penv NxEof); VAccept]) in
  live (snd r) = [1; 2] /\ In RRefused (snd r) /\ In (RGone 0) (snd r).
Proof. exact C24_reply_example_pf. Qed.

(** C25 (reply socket) is violated: (1) a client whose handshake makes the auth task panic is never subtracted; (2) nor is a client
    thrown out by another one with the same address.  In both cases active_clients is 1 too large for ever. *)
Theorem C25_reply_active_clients_refuted :
  forall D, exists accept_all,
  (let r := rp_run None 0 (Some accept_all) None D rp_init
       [VAccept; VConn 0 (Some (Some 7)); VAuth 0 [IoData [x01; x00; x00; x00; x05; x41]] true] in
   live (snd r) = [] /\ rp_active (fst r) = 1) /\
  (let r := rp_run None 0 None None D rp_init
       [VAccept; VConn 0 (Some (Some 7)); VAccept; VConn 0 (Some (Some 7)); VPeer 7 (rx_penv NxEof)] in
   live (snd r) = [] /\ rp_active (fst r) = 1).
Proof. exact C25_reply_active_clients_refuted_pf. Qed.
Print Assumptions C25_reply_active_clients_refuted.

(** C25 (reply socket; exact law): active_clients is the number of connections being established or live plus the number of those lost
    in an auth-task panic or thrown out by a connection with the same address, so it is right if there were none. *)
Theorem C25_reply_active_clients_partial :
  forall max min auth co D evs s log,
  rp_run max min auth co D rp_init evs = (s, log) -> blen (live log) + blen (leaked log) < 2 ^ 64 ->
  rp_active s = blen (live log) + blen (leaked log).
Proof. exact C25_reply_active_clients_partial_pf. Qed.
Print Assumptions C25_reply_active_clients_partial.

Example C25_reply_example :
  forall D, let r := rp_run None 0 None None D rp_init (rx_hist ++ [VPeer 7 (rx_penv NxEof); VAccept; VConn 0 None]) in
  live (snd r) = [1] /\ leaked (snd r) = [] /\ rp_active (fst r) = 1.
Proof. exact C25_reply_example_pf. Qed.

(** C26 (reply socket): with an authenticator [a], in every history: a request given to the application, or any other frame
    received on a served connection, is preceded on its connection by a handshake in which the client sent an auth frame
    with a token that [a] accepted. *)
Theorem C26_reply_only_authenticated :
  forall max min a co D evs s log,
  rp_run max min (Some a) co D rp_init evs = (s, log) ->
  (forall before q after, log = before ++ RYield q :: after ->
     exists b cid m, before = b ++ [RIncoming cid (q_source q) (q_rid q) m]) /\
  (forall before cid addr rid m after, log = before ++ RIncoming cid addr rid m :: after ->
     exists input token frame rest, In (RAuthed cid input token) before /\ a token = true /\
       auth_frame token frame /\ received input = frame ++ rest).
Proof. exact C26_reply_only_authenticated_pf. Qed.
Print Assumptions C26_reply_only_authenticated.

(** C26 (reply socket): in every history, the bytes a handshake writes are the ack frame 01 01, followed by the connection
    being served, or (nothing or) the reject frame 01 00, followed by the connection's end; and a connection that ended stays
    silent: after its end nothing is ever received from it or written to it. *)
Theorem C26_reply_rejected_dropped :
  forall max min auth co D evs s log,
  rp_run max min auth co D rp_init evs = (s, log) ->
  (forall before c w after, log = before ++ RAuthReply c w :: after ->
     (exists input token more, after = RAuthed c input token :: more /\ w = [x01; x01]) \/
     (exists more, after = RGone c :: more /\ (w = [] \/ w = [x01; x00]))) /\
  (forall before x after c, log = before ++ x :: after -> acts_on c x -> ~ In c (ended before)).
Proof. exact C26_reply_rejected_dropped_pf. Qed.
Print Assumptions C26_reply_rejected_dropped.

(** C26 (reply socket): in every state with a pending handshake on connection [cid], if the client's auth frame arrives with a token
    [a] rejects (in pieces that do not crash the auth codec, C02; writes succeed), the client receives exactly the reject frame 01 00 and its connection is dropped; if [a]
    accepts it, the client receives the ack frame 01 01 and is served. *)
Theorem C26_reply_verdict :
  forall max min a co D s k cid addr token frame input,
  nth_error (rp_auths s) k = Some (cid, addr) ->
  auth_frame token frame -> Forall delivery input -> received input = frame -> existsb (fatal_cut (blen token)) (cuts 0 input) = false ->
  let (s', new) := rp_act max min (Some a) co D s (VAuth k input true) in
  if a token then exists more, new = [RAuthReply cid [x01; x01]; RAuthed cid input token; ROpen cid addr] ++ more /\
    (exists p, mget addr (rp_peers s') = Some p /\ pr_open p = true /\ pr_cid p = cid)
  else new = [RAuthReply cid [x01; x00]; RGone cid] /\ rp_peers s' = rp_peers s /\ rp_auths s' = firstn k (rp_auths s) ++ skipn (S k) (rp_auths s).
Proof. exact C26_reply_verdict_pf. Qed.
Print Assumptions C26_reply_verdict.

Example C26_reply_example :
  forall D, let a := (fun t => match t with [x41] => true | _ => false end) in
  let r := rp_run None 0 (Some a) None D rp_init
       [VAccept; VConn 0 (Some (Some 7)); VAccept; VConn 0 (Some (Some 9)); VAuth 0 [IoData [x01; x00]; IoPending; IoData [x00; x00; x01; x41]] true;
        VAuth 0 (rx_auth [x42]) true; VPeer 7 (rx_penv (NxMsg (rr_new 3 x00 [x41])))] in
  snd r = [RAccepted 0; RAccepted 1; RAuthReply 0 [x01; x01]; RAuthed 0 [IoData [x01; x00]; IoPending; IoData [x00; x00; x01; x41]] [x41]; ROpen 0 7;
           RAuthReply 1 [x01; x00]; RGone 1; RIncoming 0 7 0 (rr_new 3 x00 [x41]); RYield (mkReq 7 0 [x41])].
Proof. exact C26_reply_example_pf. Qed.

(** C27 is violated: when a client connects from an address that a connected client has, the latter is thrown out.  On IPC
    all clients have the same address (the listener's path), so at most one client is served at a time. *)
Theorem C27_same_address_evicts_refuted :
  (forall D, exists evs s log,
     rp_run None 0 None None D rp_init evs = (s, log) /\ In (ROpen 0 7) log /\ In (ROpen 1 7) log /\ In (RReplaced 0) log /\ live log = [1]) /\
  (forall max min auth co D evs s log path,
     rp_run max min auth co D rp_init evs = (s, log) ->
     (forall k a, In (VConn k (Some (Some a))) evs -> a = path) -> (served s <= 1)%nat).
Proof. exact C27_same_address_evicts_refuted_pf. Qed.
Print Assumptions C27_same_address_evicts_refuted.

(** C27 (what holds): no step other than one of client [a]'s own connection, or one that opens a connection with the same
    address, changes anything about client [a]: it stays connected, with the same requests and queued responses. *)
Theorem C27_clients_isolated_partial :
  forall max min auth co D s ev s' new a p,
  rp_act max min auth co D s ev = (s', new) -> mget a (rp_peers s) = Some p ->
  (forall e, ev <> VPeer a e) -> (forall c, ~ In (ROpen c a) new) ->
  mget a (rp_peers s') = Some p.
Proof. exact C27_clients_isolated_partial_pf. Qed.
Print Assumptions C27_clients_isolated_partial.

Example C27_example :
  forall D, let s := fst (rp_run None 0 None None D rp_init rx_hist) in
  exists p, mget 7 (rp_peers s) = Some p /\ pr_open p = true /\
  mget 7 (rp_peers (fst (rp_run None 0 None None D s [VAccept; VConn 0 (Some (Some 8)); VPeer 9 (rx_penv NxErr)]))) = Some p.
Proof. exact C27_example_pf. Qed.

(** C21 (reply socket) is violated: bytes_tx is too small by one byte (the wire id) for every frame.  Exact law: in every history,
    bytes_tx + number of frames taken by connections = number of bytes of their encodings (payloads below 4 GiB); and bytes_rx
    is the sum of the lengths of the (compressed) payloads of the received requests that could be decompressed. *)
Theorem C21_reply_bytes_partial :
  forall max min auth co D evs s log,
  rp_run max min auth co D rp_init evs = (s, log) ->
  ((forall m, In m (taken_frames log) -> blen (rr_payload m) < 2 ^ 32) ->
   rp_tx s + N.of_nat (length (taken_frames log)) = sum_len (map rr_encode (taken_frames log))) /\
  rp_rx s = sum_len (flat_map (fun x => let '(_, _, m) := x in
                      if try_decompress D (rr_ctype m) (rr_payload m) then [rr_payload m] else []) (incoming log)).
Proof. exact C21_reply_bytes_partial_pf. Qed.
Print Assumptions C21_reply_bytes_partial.

(** C21 (reply socket): a witness of the violation. *)
Theorem C21_reply_bytes_tx_refuted :
  forall D, let r := rp_run None 0 None None D rp_init rx_hist in
  rp_tx (fst r) = 21 /\ sum_len (map rr_encode (taken_frames (snd r))) = 23.
Proof. exact C21_reply_bytes_tx_refuted_pf. Qed.
Print Assumptions C21_reply_bytes_tx_refuted.

(** C57 (reply driver): from every reachable state, if a poll of the driver is still running after the iterations [ds], nothing new happened outside and
    each connection gave enough answers, then their number is at most the number of open clients + twice the pending handshakes
    + three times the pending accepts.  So the poll returns. *)
Theorem C57_reply_poll_returns :
  forall max min auth co D evs s log ds s' new,
  rp_run max min auth co D rp_init evs = (s, log) ->
  (forall d, In d ds -> quiet d) -> (forall d a, In d ds -> (work a s < length (d_peers d a))%nat) ->
  rp_poll max min auth co D ds s = (s', new, false) ->
  (length ds <= served s + 2 * length (rp_auths s) + 3 * length (rp_conns s))%nat.
Proof. exact C57_reply_poll_returns_pf. Qed.
Print Assumptions C57_reply_poll_returns.

Example C57_reply_example :
  forall D, let s := fst (rp_run None 0 None None D rp_init (rx_start ++ [VRespond 1 [x62]; VAccept])) in
  quiet rx_quiet /\ (work 9 s < 8)%nat /\ served s = 2%nat /\ length (rp_conns s) = 1%nat /\
  snd (rp_poll None 0 None None D [mkDenv [] (fun _ => repeat (rx_penv NxPending) 8) None (Some (0%nat, Some (Some 5))) false; rx_quiet] s) = true.
Proof. exact C57_reply_example_pf. Qed.

(** C58: in every history, the requests the application received, followed by those still in the channel, are - in order of
    arrival, each once - the frames received (unless lost), with the address of their connection and the decompressed payload;
    and a frame is lost only if it cannot be decompressed, the socket was dropped, or 1024 requests were waiting. *)
Theorem C58_requests_yielded_faithfully :
  forall max min auth co D evs s log,
  rp_run max min auth co D rp_init evs = (s, log) ->
  (~ In RSocketDropped log -> got log ++ rp_chan s =
     flat_map (fun x => let '(addr, rid, m) := x in
       if smem rid (lost_rids log) then [] else
       match try_decompress D (rr_ctype m) (rr_payload m) with Some p => [mkReq addr rid p] | None => [] end) (incoming log)) /\
  (forall before r after, log = before ++ RLost r :: after ->
     exists b c a m, before = b ++ [RIncoming c a r m] /\
       (try_decompress D (rr_ctype m) (rr_payload m) = None \/ In RSocketDropped b \/
        exists waiting, yielded b = got b ++ waiting /\ 1024 <= blen waiting)) /\
  NoDup (map (fun x => snd (fst x)) (incoming log)).
Proof. exact C58_requests_yielded_faithfully_pf. Qed.
Print Assumptions C58_requests_yielded_faithfully.

Example C58_example :
  forall D, let r := rp_run None 0 None None D rp_init rx_start in
  got (snd r) = [mkReq 7 0 [x41]; mkReq 9 1 [x42]] /\ lost_rids (snd r) = [] /\
  lost_rids (snd (rp_run None 0 None None D rp_init (rx_start ++ [VPeer 7 (rx_penv (NxMsg (rr_new 5 xff [x41])))]))) = [2].
Proof. exact C58_example_pf. Qed.

