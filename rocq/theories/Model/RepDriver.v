(** The reply socket and its background task: msg-socket/src/rep/{socket,driver,mod,stats}.rs.

    A connection (one accepted client) has a number [cid]; an address is a number; a oneshot channel (one per request)
    has a number [rid].  [peer_iter] is one iteration of the loop of `PeerState::poll_next` (driver.rs 260-350),
    [rp_iter] one iteration of the loop of `RepDriver::poll` (75-179), which polls the peers, the auth tasks, the pending
    accepts and the listener in this order.  [rp_act] gives the same effects as single atomic steps in any order, so the
    runs of [rp_run] include every schedule of polls; Proofs/RepDriverP.v proves that every poll is such a run. *)
From Verif Require Import Model.Base Model.Map Model.WireReqRep Model.Compression Model.Stats Model.Framed Model.WireAuth
  Model.Handshake Model.ReqDriver.

(** State of a oneshot channel as the sender (the Request held by the application) left it. *)
Inductive os_state := OsWait | OsSent (x : bytes) | OsDropped.

(** PeerState, driver.rs 31-39, inside its StreamNotifyClose; [pr_open = false]: the stream has ended and was dropped
    (the connection is closed), the entry disappears from the StreamMap when polled next. *)
Record peer := mkPeer {
  pr_cid : N;                      (* conn: which connection *)
  pr_pending : list (N * N);       (* pending_requests: (rid, msg_id) *)
  pr_egress : list rr_msg;         (* egress_queue, front first *)
  pr_flush : bool;                 (* should_flush *)
  pr_open : bool }.

(** A Request (rep/mod.rs 62-71) in the channel to the socket or yielded by it. *)
Record request := mkReq { q_source : N; q_rid : N; q_msg : bytes }.

(** Observable effects and ghost marks, in order. *)
Inductive rout :=
| RIncoming (cid addr rid : N) (m : rr_msg)   (* a frame was received on the connection; its PendingRequest is [rid] *)
| RYield (q : request)                        (* put into the channel to the application *)
| RLost (rid : N)                             (* not put there: undecodable, channel full, or socket dropped *)
| RQueued (cid rid : N) (m : rr_msg)          (* ghost: the response was turned into a frame *)
| RUnsendable (cid rid : N)                   (* the response could not be compressed: dropped *)
| RHanded (cid : N) (m : rr_msg) (ok : bool)  (* start_send(m) on the connection *)
| RAccepted (cid : N)                         (* an inbound connection was admitted *)
| RRefused                                    (* an inbound connection was turned away: max_clients *)
| RAuthed (cid : N) (input : list io) (id : bytes) (* the handshake on the connection succeeded, having read [input] *)
| RAuthReply (cid : N) (frame : bytes)        (* bytes the handshake wrote *)
| ROpen (cid addr : N)                        (* the connection is served from now on *)
| RReplaced (cid : N)                         (* a served connection was thrown out by one with the same address *)
| RPanicked (cid : N)                         (* the auth task panicked *)
| RGone (cid : N)                             (* an admitted connection ended and its slot was given back *)
| RResponded (rid : N) (x : bytes) (ok : bool) (* respond(x) and whether it returned Ok *)
| RDiscarded (rid : N)                        (* the application dropped the Request *)
| RReceived (q : request)                     (* the application got the Request from the socket *)
| RSocketDropped.                             (* the application dropped the RepSocket *)

Record rp := mkRp {
  rp_active : N;                               (* stats.active_clients, a wrapping usize *)
  rp_conns : list N;                           (* conn_tasks *)
  rp_auths : list (N * N);                     (* auth_tasks: (cid, addr) *)
  rp_peers : list (N * peer);                  (* peer_states *)
  rp_chan : list request;                      (* to_socket channel, oldest first *)
  rp_held : list N;                            (* ghost: rids of the Requests held by the application *)
  rp_os : list (N * os_state);                 (* the oneshot channels *)
  rp_next_rid : N; rp_next_cid : N;            (* ghost: fresh numbers *)
  rp_tx : N; rp_rx : N; rp_failed : N;         (* stats *)
  rp_dropped : bool }.                         (* the RepSocket was dropped *)

Definition rp_init : rp := mkRp 0 [] [] [] [] [] [] 0 0 0 0 0 false.

(** Answers of the environment in one iteration of a peer's loop. *)
Record penv := mkPenv {
  p_flush_ok : bool;      (* poll_flush is Ready(Ok) *)
  p_ready : bool;         (* poll_ready().is_ready() *)
  p_send : bool;          (* start_send is Ok *)
  p_pref : option N;      (* which completed response FuturesUnordered yields first; [None]: it finds none, as tokio's budget of
                             this turn is used up or as respond() comes only after the futures were polled *)
  p_next : next_ans }.    (* conn.poll_next *)

(** Results of a peer iteration: `continue`, Ready(Some(Ok)), Ready(Some(Err)), Ready(None), Pending. *)
Inductive pres := PCont | PReq (m : rr_msg) | PErr | PNone | PPend.

Definition os_done (os : list (N * os_state)) (e : N * N) : bool :=
  match mget (fst e) os with Some OsWait => false | Some _ => true | None => true end.

(** FuturesUnordered::poll_next over the pending requests: some completed one, [pref] if possible; or none, see
    [p_pref]. *)
Definition pick (pref : option N) (os : list (N * os_state)) (l : list (N * N)) : option (N * N) :=
  let d := filter (os_done os) l in
  match pref with
  | None => None
  | Some k => match find (fun e => fst e =? k) d with Some e => Some e | None => hd_error d end
  end.
Definition unpend (rid : N) (l : list (N * N)) : list (N * N) := filter (fun e => negb (fst e =? rid)) l.

Section Rep.
Variables (max : option N)                                (* RepOptions::max_clients *)
          (min : N)                                       (* min_compress_size *)
          (auth : option (bytes -> bool))                 (* the authenticator *)
          (co : option compressor) (D : decompressors).

(** Statistics touched by a peer: (bytes_tx, failed_requests). *)
(** One iteration of PeerState::poll_next, driver.rs 260-350.  [rid] is a fresh oneshot. *)
Definition peer_iter (e : penv) (os : list (N * os_state)) (rid : N) (p : peer) (tx failed : N)
  : peer * N * N * list rout * pres :=
  let p := if pr_flush p && p_flush_ok e then mkPeer (pr_cid p) (pr_pending p) (pr_egress p) false (pr_open p) else p in (* 262-266 *)
  match (if p_ready e then pr_egress p else []) with                                                    (* 269-270 *)
  | m :: q =>
    if p_send e then
      (mkPeer (pr_cid p) (pr_pending p) q true (pr_open p), tx + rr_size m, failed, [RHanded (pr_cid p) m true], PCont)   (* 273-279 *)
    else (mkPeer (pr_cid p) (pr_pending p) q (pr_flush p) (pr_open p), tx, failed + 1, [RHanded (pr_cid p) m false], PNone) (* 280-285 *)
  | [] =>
    let next (p : peer) :=
      match p_next e with                                                                               (* 323-347 *)
      | NxMsg m => (mkPeer (pr_cid p) (pr_pending p ++ [(rid, rr_id m)]) (pr_egress p) (pr_flush p) (pr_open p), tx, failed, [], PReq m)
      | NxErr => (p, tx, failed, [], PErr)
      | NxEof => (p, tx, failed, [], PNone)
      | NxPending => (p, tx, failed, [], PPend)
      end in
    match pick (p_pref e) os (pr_pending p) with                                                         (* 291-293 *)
    | None => next p
    | Some (r, id) =>
      let p' := mkPeer (pr_cid p) (unpend r (pr_pending p)) (pr_egress p) (pr_flush p) (pr_open p) in
      match mget r os with
      | Some (OsSent x) =>
        match rep_outgoing min co id x with                                                              (* 294-316 *)
        | Some m => (mkPeer (pr_cid p) (unpend r (pr_pending p)) (pr_egress p ++ [m]) (pr_flush p) (pr_open p), tx, failed,
                     [RQueued (pr_cid p) r m], PCont)                                                    (* 317-319 *)
        | None => (p', tx, failed, [RUnsendable (pr_cid p) r], PCont)                                    (* 302-305 *)
        end
      | _ => next p'                                      (* the request was dropped: Some(None), falls through *)
      end
    end
  end.

Definition rp_with_active (s : rp) (a : N) : rp :=
  mkRp a (rp_conns s) (rp_auths s) (rp_peers s) (rp_chan s) (rp_held s) (rp_os s) (rp_next_rid s) (rp_next_cid s)
       (rp_tx s) (rp_rx s) (rp_failed s) (rp_dropped s).
(** decrement_active_clients, stats.rs 34-36: fetch_sub wraps *)
Definition rp_decr (s : rp) : rp := rp_with_active s (wrap64 (rp_active s + (2 ^ 64 - 1))).
(** increment_active_clients, stats.rs 29-31 *)
Definition rp_incr (s : rp) : rp := rp_with_active s (wrap64 (rp_active s + 1)).
Definition rp_with_peers (s : rp) (ps : list (N * peer)) : rp :=
  mkRp (rp_active s) (rp_conns s) (rp_auths s) ps (rp_chan s) (rp_held s) (rp_os s) (rp_next_rid s) (rp_next_cid s)
       (rp_tx s) (rp_rx s) (rp_failed s) (rp_dropped s).

(** The channel to the socket: mpsc::channel(DEFAULT_BUFFER_SIZE), socket.rs 105. *)
Definition rep_chan_cap : N := 1024.

(** driver.rs 78-94: a request arrived from the peer with address [addr].  The oneshot [rp_next_rid] was created for it. *)
Definition rp_on_request (s : rp) (addr cid : N) (m : rr_msg) : rp * list rout :=
  let rid := rp_next_rid s in
  let inc := RIncoming cid addr rid m in
  let lost rx := (mkRp (rp_active s) (rp_conns s) (rp_auths s) (rp_peers s) (rp_chan s) (rp_held s) (mset rid OsDropped (rp_os s))
                    (rid + 1) (rp_next_cid s) (rp_tx s) rx (rp_failed s) (rp_dropped s), [inc; RLost rid]) in
  match try_decompress D (rr_ctype m) (rr_payload m) with
  | None => lost (rp_rx s)                                                       (* 86-89 *)
  | Some x =>
    let rx := rp_rx s + blen (rr_payload m) in                                   (* 92 *)
    if rp_dropped s || (rep_chan_cap <=? blen (rp_chan s)) then lost rx          (* 93: try_send fails, the request is dropped *)
    else let q := mkReq addr rid x in
      (mkRp (rp_active s) (rp_conns s) (rp_auths s) (rp_peers s) (rp_chan s ++ [q]) (rp_held s) (mset rid OsWait (rp_os s))
            (rid + 1) (rp_next_cid s) (rp_tx s) rx (rp_failed s) (rp_dropped s), [inc; RYield q])
  end.

(** One iteration of the peer at [addr] and what the driver does with its result (76-105).  [true]: the StreamMap yielded
    an item, so the driver handles it and continues its loop. *)
Inductive pstat := PsLoop | PsItem | PsPending | PsAbsent.
Definition rp_peer (addr : N) (e : penv) (s : rp) : rp * list rout * pstat :=
  match mget addr (rp_peers s) with
  | None => (s, [], PsAbsent)
  | Some p =>
    if pr_open p then
      match peer_iter e (rp_os s) (rp_next_rid s) p (rp_tx s) (rp_failed s) with
      | (p', tx, failed, o, r) =>
        let p'' := match r with PNone => mkPeer (pr_cid p') [] [] false false | _ => p' end in   (* StreamNotifyClose drops the PeerState *)
        let s1 := mkRp (rp_active s) (rp_conns s) (rp_auths s) (mset addr p'' (rp_peers s)) (rp_chan s) (rp_held s) (rp_os s)
                       (rp_next_rid s) (rp_next_cid s) tx (rp_rx s) failed (rp_dropped s) in
        match r with
        | PCont => (s1, o, PsLoop)
        | PPend => (s1, o, PsPending)
        | PErr => (s1, o, PsItem)                                                                (* 95-97 *)
        | PNone => (rp_decr s1, o ++ [RGone (pr_cid p)], PsItem)                                 (* 98-101 *)
        | PReq m => let (s2, o2) := rp_on_request s1 addr (pr_cid p) m in (s2, o ++ o2, PsItem)   (* 78-94 *)
        end
      end
    else (rp_with_peers s (mdel addr (rp_peers s)), [], PsPending)                               (* StreamMap removes a finished stream *)
  end.

(** peer_states.insert, driver.rs 113-124, 235-246: StreamMap::insert drops a stream with the same key. *)
Definition rp_insert (s : rp) (cid addr : N) : rp * list rout :=
  (rp_with_peers s (mset addr (mkPeer cid [] [] false true) (rp_peers s)),
   ROpen cid addr :: match mget addr (rp_peers s) with
                     | Some p => if pr_open p then [RReplaced (pr_cid p)] else []
                     | None => []
                     end).

(** An auth task finished: driver.rs 107-133.  [true]: handled and `continue`. *)
Definition rp_auth (k : nat) (input : list io) (send_ok : bool) (s : rp) : rp * list rout * bool :=
  match nth_error (rp_auths s) k, auth with
  | Some (cid, addr), Some a =>
    let s1 := mkRp (rp_active s) (rp_conns s) (firstn k (rp_auths s) ++ skipn (S k) (rp_auths s)) (rp_peers s) (rp_chan s)
                   (rp_held s) (rp_os s) (rp_next_rid s) (rp_next_cid s) (rp_tx s) (rp_rx s) (rp_failed s) (rp_dropped s) in
    match auth_server a send_ok input with
    | (AuthOk id, w, _) => let (s2, o2) := rp_insert s1 cid addr in (s2, [RAuthReply cid w; RAuthed cid input id] ++ o2, true)
    | (AuthErr, w, _) => (rp_decr s1, [RAuthReply cid w; RGone cid], true)
    | (AuthPanic, _, _) => (s1, [RPanicked cid], false)                 (* `Ready(Some(Err(_)))` is not matched *)
    | (AuthRunning, _, _) => (s, [], false)
    end
  | _, _ => (s, [], false)
  end.

(** An accept future finished, driver.rs 135-153 with on_incoming 190-250.  [res]: [None] = Err; [Some None] = the
    connection is there but peer_addr() fails; [Some (Some addr)]. *)
Definition rp_conn (k : nat) (res : option (option N)) (s : rp) : rp * list rout * bool :=
  match nth_error (rp_conns s) k with
  | None => (s, [], false)
  | Some cid =>
    let s1 := mkRp (rp_active s) (firstn k (rp_conns s) ++ skipn (S k) (rp_conns s)) (rp_auths s) (rp_peers s) (rp_chan s)
                   (rp_held s) (rp_os s) (rp_next_rid s) (rp_next_cid s) (rp_tx s) (rp_rx s) (rp_failed s) (rp_dropped s) in
    match res with
    | Some (Some addr) =>
      match auth with
      | Some _ => (mkRp (rp_active s1) (rp_conns s1) (rp_auths s1 ++ [(cid, addr)]) (rp_peers s1) (rp_chan s1)
                     (rp_held s1) (rp_os s1) (rp_next_rid s1) (rp_next_cid s1) (rp_tx s1) (rp_rx s1) (rp_failed s1) (rp_dropped s1), [], true)
      | None => let (s2, o2) := rp_insert s1 cid addr in (s2, o2, true)
      end
    | _ => (rp_decr s1, [RGone cid], true)
    end
  end.

(** The listener yielded an accept future, driver.rs 157-176. *)
Definition rp_accept (s : rp) : rp * list rout :=
  if match max with Some m => m <=? rp_active s | None => false end then (s, [RRefused])
  else let cid := rp_next_cid s in
    (rp_incr (mkRp (rp_active s) (rp_conns s ++ [cid]) (rp_auths s) (rp_peers s) (rp_chan s) (rp_held s) (rp_os s)
                (rp_next_rid s) (cid + 1) (rp_tx s) (rp_rx s) (rp_failed s) (rp_dropped s)), [RAccepted cid]).

(** Whether the receiving half of a oneshot still exists: its PendingRequest is in the pending list of a peer. *)
Definition os_receiver (s : rp) (rid : N) : bool :=
  existsb (fun ap => existsb (fun e => fst e =? rid) (pr_pending (snd ap))) (rp_peers s).

(** Atomic steps: those of the driver task, in any order, and those of the application. *)
Inductive rp_event :=
| VPeer (addr : N) (e : penv)
| VAuth (k : nat) (input : list io) (send_ok : bool)
| VConn (k : nat) (res : option (option N))
| VAccept
| VRecv                              (* the application takes the next Request from the socket *)
| VRespond (rid : N) (x : bytes)     (* it calls respond(x) on a Request it holds *)
| VDiscard (rid : N)                 (* it drops a Request it holds *)
| VDropSocket.                       (* it drops the RepSocket, and the Requests still in the channel with it *)

Definition rp_set_app (s : rp) (chan : list request) (held : list N) (os : list (N * os_state)) (dropped : bool) : rp :=
  mkRp (rp_active s) (rp_conns s) (rp_auths s) (rp_peers s) chan held os (rp_next_rid s) (rp_next_cid s)
       (rp_tx s) (rp_rx s) (rp_failed s) dropped.

Definition rp_act (s : rp) (ev : rp_event) : rp * list rout :=
  match ev with
  | VPeer addr e => let '(s', o, _) := rp_peer addr e s in (s', o)
  | VAuth k i b => let '(s', o, _) := rp_auth k i b s in (s', o)
  | VConn k r => let '(s', o, _) := rp_conn k r s in (s', o)
  | VAccept => rp_accept s
  | VRecv =>                                                              (* socket.rs 161-166 *)
    match rp_chan s with
    | q :: rest => (rp_set_app s rest (q_rid q :: rp_held s) (rp_os s) (rp_dropped s), [RReceived q])
    | [] => (s, [])
    end
  | VRespond rid x =>                                                     (* mod.rs 85-87: oneshot::Sender::send *)
    if smem rid (rp_held s) then
      if os_receiver s rid then
        (rp_set_app s (rp_chan s) (sdel rid (rp_held s)) (mset rid (OsSent x) (rp_os s)) (rp_dropped s), [RResponded rid x true])
      else (rp_set_app s (rp_chan s) (sdel rid (rp_held s)) (mset rid OsDropped (rp_os s)) (rp_dropped s), [RResponded rid x false])
    else (s, [])
  | VDiscard rid =>
    if smem rid (rp_held s) then
      (rp_set_app s (rp_chan s) (sdel rid (rp_held s)) (mset rid OsDropped (rp_os s)) (rp_dropped s), [RDiscarded rid])
    else (s, [])
  | VDropSocket =>
    (rp_set_app s [] (rp_held s) (fold_left (fun os q => mset (q_rid q) OsDropped os) (rp_chan s) (rp_os s)) true,
     RSocketDropped :: map (fun q => RDiscarded (q_rid q)) (rp_chan s))
  end.

Fixpoint rp_run (s : rp) (evs : list rp_event) : rp * list rout :=
  match evs with
  | [] => (s, [])
  | ev :: evs' => let (s1, o1) := rp_act s ev in let (s2, o2) := rp_run s1 evs' in (s2, o1 ++ o2)
  end.

(** ** The poll functions *)

(** PeerState::poll_next under the StreamMap: iterate with the answers [es] until it returns.  [None]: still looping. *)
Fixpoint rp_peer_poll (addr : N) (es : list penv) (s : rp) : rp * list rout * option bool :=
  match es with
  | [] => (s, [], None)
  | e :: es' =>
    match rp_peer addr e s with
    | (s1, o1, PsLoop) => let '(s2, o2, r) := rp_peer_poll addr es' s1 in (s2, o1 ++ o2, r)
    | (s1, o1, PsItem) => (s1, o1, Some true)
    | (s1, o1, _) => (s1, o1, Some false)
    end
  end.

(** StreamMap::poll_next: poll the peers in the order [order] until one yields an item. *)
Fixpoint rp_poll_peers (order : list N) (es : N -> list penv) (s : rp) : rp * list rout * option bool :=
  match order with
  | [] => (s, [], Some false)
  | a :: order' =>
    match rp_peer_poll a (es a) s with
    | (s1, o1, Some false) => let '(s2, o2, r) := rp_poll_peers order' es s1 in (s2, o1 ++ o2, r)
    | (s1, o1, r) => (s1, o1, r)
    end
  end.

(** Answers during one iteration of the driver's loop.  [d_order]: the order in which the StreamMap (which starts at a
    random index) polls the peers; peers it does not mention are polled after the others. *)
Record denv := mkDenv {
  d_order : list N;
  d_peers : N -> list penv;
  d_auth : option (nat * list io * bool);
  d_conn : option (nat * option (option N));
  d_accept : bool }.

Definition d_all (d : denv) (s : rp) : list N :=
  filter (fun a => mem a (rp_peers s)) (d_order d) ++ filter (fun a => negb (smem a (d_order d))) (mkeys (rp_peers s)).

(** One iteration, driver.rs 76-178.  Third component: [None] = a peer is still looping when the answers end,
    [Some true] = `continue`, [Some false] = `Poll::Pending`. *)
Definition rp_iter (d : denv) (s : rp) : rp * list rout * option bool :=
  match rp_poll_peers (d_all d s) (d_peers d) s with
  | (s1, o1, None) => (s1, o1, None)
  | (s1, o1, Some true) => (s1, o1, Some true)
  | (s1, o1, Some false) =>
    let '(s2, o2, c2) := match d_auth d with Some (k, i, b) => rp_auth k i b s1 | None => (s1, [], false) end in
    if c2 then (s2, o1 ++ o2, Some true) else
    let '(s3, o3, c3) := match d_conn d with Some (k, r) => rp_conn k r s2 | None => (s2, [], false) end in
    if c3 then (s3, o1 ++ o2 ++ o3, Some true) else
    if d_accept d then let (s4, o4) := rp_accept s3 in (s4, o1 ++ o2 ++ o3 ++ o4, Some true)
    else (s3, o1 ++ o2 ++ o3, Some false)
  end.

(** RepDriver::poll with answers [ds]; [None]: not finished when the answers end; [Some]: Poll::Pending. *)
Fixpoint rp_poll (ds : list denv) (s : rp) : rp * list rout * bool :=
  match ds with
  | [] => (s, [], false)
  | d :: ds' =>
    match rp_iter d s with
    | (s1, o1, Some true) => let '(s2, o2, r) := rp_poll ds' s1 in (s2, o1 ++ o2, r)
    | (s1, o1, Some false) => (s1, o1, true)
    | (s1, o1, None) => (s1, o1, false)
    end
  end.
End Rep.
