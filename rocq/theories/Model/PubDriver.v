(** The publisher socket, its background task and its sessions: msg-socket/src/pub/{socket,driver,session,mod,stats}.rs.

    A connection (one accepted subscriber) has a number [cid].  [sn_iter] is one iteration of the loop of
    `SubscriberSession::poll` (session.rs 139-219), [pb_iter] one iteration of the loop of `PubDriver::poll` (driver.rs 49-132).
    The driver and every session are separate tasks; [pb_act] gives their effects (and those of the application's calls) as
    atomic steps in any order, so the runs of [pb_run] include every schedule; Proofs/PubDriverP.v proves that every poll is such
    a run.  The broadcast channel (tokio 1.35 sync/broadcast.rs) is the list of all messages ever sent plus a position per
    receiver. *)
From Verif Require Import Model.Base Model.Map Model.WirePubSub Model.Compression Model.Stats Model.Framed Model.WireAuth
  Model.Handshake Model.Trie Model.Utf8.

(** PubMessage, pub/mod.rs 112-119. *)
Record pmsg := mkPm { pm_topic : bytes; pm_body : omsg }.

(** ControlMsg and msg_to_control, session.rs 103-133.  [None] is ControlMsg::Close. *)
Definition starts_with (p b : bytes) : bool := if eq_dec (firstn (length p) b) p then true else false.
Definition msg_to_control (m : ps_msg) : option tr_op :=
  if ps_payload_size m =? 0 then
    if starts_with sub_prefix (ps_topic m) then Some (TSub (from_utf8_lossy (skipn (length sub_prefix) (ps_topic m))))
    else if starts_with unsub_prefix (ps_topic m) then Some (TUnsub (from_utf8_lossy (skipn (length unsub_prefix) (ps_topic m))))
    else None
  else None.

(** SubscriberSession, session.rs 20-39 (session_id is only logged). *)
Record sess := mkSess {
  sn_seq : N;                     (* seq *)
  sn_pos : N;                     (* position of from_socket_bcast *)
  sn_pending : option ps_msg;     (* pending_egress *)
  sn_filter : node;               (* topic_filter *)
  sn_flush : bool }.              (* should_flush *)

(** A new session, driver.rs 64-74 and 189-199; `resubscribe()` starts at the tail of the broadcast channel. *)
Definition sess_new (tail : N) : sess := mkSess 0 tail None trie_new false.

(** Observable effects and ghost marks, in order. *)
Inductive qout :=
| QPublished (m : pmsg)                            (* the message was put into the broadcast channel *)
| QPublishErr                                      (* publish/try_publish returned an error: compression failed *)
| QOpen (cid : N)                                  (* a session was started for the connection *)
| QTook (cid i : N)                                (* the session read published message number [i] (counted from 0) *)
| QSkipped (cid x y : N)                           (* the session lagged behind and lost messages [x] .. [y-1] *)
| QControl (cid : N) (m : ps_msg) (o : option tr_op) (* a frame was received on the connection; what the session did *)
| QHanded (cid : N) (m : ps_msg) (ok : bool)       (* start_send(m) on the connection *)
| QAccepted (cid : N)                              (* an inbound connection was admitted *)
| QRefused                                         (* an inbound connection was turned away: max_clients *)
| QAuthed (cid : N) (input : list io) (id : bytes) (* the handshake succeeded, having read [input] *)
| QAuthReply (cid : N) (frame : bytes)             (* bytes the handshake wrote *)
| QPanicked (cid : N)                              (* the auth task panicked *)
| QCrashed (cid : N)                               (* the session task panicked (its Drop gives the slot back) *)
| QGone (cid : N)                                  (* an admitted connection ended and its slot was given back *)
| QClosed.                                         (* the last PubSocket clone was dropped *)

Record pb := mkPb {
  pb_active : N;                  (* stats.active_clients, a wrapping usize *)
  pb_conns : list N;              (* conn_tasks *)
  pb_auths : list N;              (* auth_tasks *)
  pb_sess : list (N * sess);      (* the running session tasks *)
  pb_hist : list pmsg;            (* all messages ever sent on the broadcast channel *)
  pb_closed : bool;               (* its sender is gone *)
  pb_next_cid : N;                (* ghost: fresh numbers *)
  pb_tx : N }.                    (* stats.bytes_tx *)

Definition pb_init : pb := mkPb 0 [] [] [] [] false 0 0.

(** Answers of the environment in one iteration of a session's loop. *)
Inductive ps_next := PnMsg (m : ps_msg) | PnErr | PnEof | PnPending.
Record senv := mkSenv {
  s_tick : bool;          (* flush_interval.poll_tick is ready (true if there is no interval) *)
  s_flush_ok : bool;      (* poll_flush is Ready(Ok) *)
  s_ready : bool;         (* poll_ready().is_ready() *)
  s_send : bool;          (* start_send is Ok *)
  s_now : N;              (* unix_micros(), for the timestamp *)
  s_next : ps_next }.     (* conn.poll_next *)

Inductive sres := SCont | SPend | SDone | SCrash.

(** broadcast::Receiver::recv: tokio 1.35 sync/broadcast.rs recv_ref.  The channel keeps the [cap] newest messages. *)
Inductive brecv := BMsg | BLagged (next : N) | BEmpty | BClosed.
Definition bcast_recv (cap pos tail : N) (closed : bool) : brecv :=
  if pos =? tail then (if closed then BClosed else BEmpty)
  else if pos + cap <? tail then BLagged (tail - cap)
  else BMsg.

(** broadcast::channel(capacity): `capacity.next_power_of_two()` slots.  (session_buffer_size = 0 panics in bind(), not modelled.) *)
Definition bcast_cap (buf : N) : N := 2 ^ N.log2_up buf.

Section Pub.
Variables (max : option N)                       (* PubOptions::max_clients *)
          (buf : N)                              (* session_buffer_size *)
          (min : N)                              (* min_compress_size *)
          (auth : option (bytes -> bool))        (* the authenticator *)
          (co : option compressor).

(** One iteration of SubscriberSession::poll, session.rs 142-217.  Second component: increment of bytes_tx. *)
Definition sn_iter (cid : N) (e : senv) (hist : list pmsg) (closed : bool) (s : sess) : sess * N * list qout * sres :=
  let fl := if sn_flush s && s_tick e && s_flush_ok e then false else sn_flush s in                       (* 146-150 *)
  let s := mkSess (sn_seq s) (sn_pos s) (sn_pending s) (sn_filter s) fl in
  if s_ready e then                                                                                       (* 153 *)
    match sn_pending s with
    | Some m =>                                                                                           (* 154 *)
      if s_send e then (mkSess (sn_seq s) (sn_pos s) None (sn_filter s) true, ps_size m, [QHanded cid m true], SCont)   (* 159-164 *)
      else (mkSess (sn_seq s) (sn_pos s) None (sn_filter s) fl, 0, [QHanded cid m false], SDone)           (* 166-171 *)
    | None =>
      match bcast_recv (bcast_cap buf) (sn_pos s) (blen hist) closed with                                 (* 179 *)
      | BMsg =>
        match nth_error hist (N.to_nat (sn_pos s)) with
        | None => (s, 0, [], SPend)                                                                       (* unreachable *)
        | Some p =>
          if trie_contains (sn_filter s) (pm_topic p) then                                                (* on_outgoing, 44-55 *)
            match pub_into_wire (s_now e) (sn_seq s) (pm_topic p) (pm_body p) with
            | Some m => (mkSess (wrapping_add32 (sn_seq s) 1) (sn_pos s + 1) (Some m) (sn_filter s) fl, 0, [QTook cid (sn_pos s)], SCont)
            | None => (s, 0, [QTook cid (sn_pos s)], SCrash)                                              (* "Topic too large" *)
            end
          else (mkSess (sn_seq s) (sn_pos s + 1) None (sn_filter s) fl, 0, [QTook cid (sn_pos s)], SCont)
        end
      | BLagged next => (mkSess (sn_seq s) next None (sn_filter s) fl, 0, [QSkipped cid (sn_pos s) next], SCont)   (* 185-188 *)
      | BClosed => (s, 0, [], SDone)                                                                      (* 189-193 *)
      | BEmpty =>
        match s_next e with                                                                               (* 198 *)
        | PnMsg m =>                                                                                      (* on_incoming, 59-74 *)
          let o := msg_to_control m in
          (mkSess (sn_seq s) (sn_pos s) None (match o with Some op => trie_op (sn_filter s) op | None => sn_filter s end) fl, 0,
           [QControl cid m o], SCont)
        | PnErr => (s, 0, [], SDone)                                                                      (* 205-209 *)
        | PnEof => (s, 0, [], SDone)                                                                      (* 210-213 *)
        | PnPending => (s, 0, [], SPend)                                                                  (* 217 *)
        end
      end
    end
  else (s, 0, [], SPend).                                                                                 (* 174-176 *)

Definition pb_with_active (s : pb) (a : N) : pb :=
  mkPb a (pb_conns s) (pb_auths s) (pb_sess s) (pb_hist s) (pb_closed s) (pb_next_cid s) (pb_tx s).
(** decrement_active_clients / increment_active_clients, stats.rs: wrapping atomics *)
Definition pb_decr (s : pb) : pb := pb_with_active s (wrap64 (pb_active s + (2 ^ 64 - 1))).
Definition pb_incr (s : pb) : pb := pb_with_active s (wrap64 (pb_active s + 1)).

(** One iteration of the session of connection [cid], and what happens when its task ends: SubscriberSession::drop (97-101). *)
Definition pb_session (cid : N) (e : senv) (s : pb) : pb * list qout * option sres :=
  match mget cid (pb_sess s) with
  | None => (s, [], None)
  | Some x =>
    match sn_iter cid e (pb_hist s) (pb_closed s) x with
    | (x', dtx, o, r) =>
      let keep ss := mkPb (pb_active s) (pb_conns s) (pb_auths s) ss (pb_hist s) (pb_closed s) (pb_next_cid s) (pb_tx s + dtx) in
      match r with
      | SCont | SPend => (keep (mset cid x' (pb_sess s)), o, Some r)
      | SDone => (pb_decr (keep (mdel cid (pb_sess s))), o ++ [QGone cid], Some r)
      | SCrash => (pb_decr (keep (mdel cid (pb_sess s))), o ++ [QCrashed cid], Some r)
      end
    end
  end.

(** `tokio::spawn(session)`, driver.rs 64-78, 189-203. *)
Definition pb_open (cid : N) (s : pb) : pb * list qout :=
  (mkPb (pb_active s) (pb_conns s) (pb_auths s) (mset cid (sess_new (blen (pb_hist s))) (pb_sess s)) (pb_hist s) (pb_closed s)
        (pb_next_cid s) (pb_tx s), [QOpen cid]).

(** An auth task finished: driver.rs 55-87.  [true]: handled and `continue`. *)
Definition pb_auth (k : nat) (input : list io) (send_ok : bool) (s : pb) : pb * list qout * bool :=
  match nth_error (pb_auths s) k, auth with
  | Some cid, Some a =>
    let s1 := mkPb (pb_active s) (pb_conns s) (firstn k (pb_auths s) ++ skipn (S k) (pb_auths s)) (pb_sess s) (pb_hist s)
                   (pb_closed s) (pb_next_cid s) (pb_tx s) in
    match auth_server a send_ok input with
    | (AuthOk id, w, _) => let (s2, o2) := pb_open cid s1 in (s2, [QAuthReply cid w; QAuthed cid input id] ++ o2, true)
    | (AuthErr, w, _) => (pb_decr s1, [QAuthReply cid w; QGone cid], true)
    | (AuthPanic, _, _) => (s1, [QPanicked cid], false)               (* `Ready(Some(Err(_)))` is not matched *)
    | (AuthRunning, _, _) => (s, [], false)
    end
  | _, _ => (s, [], false)
  end.

(** An accept future finished, driver.rs 91-109 with on_incoming 142-208.  [res]: [None] = Err; [Some false] = the connection
    is there but peer_addr() fails; [Some true]. *)
Definition pb_conn (k : nat) (res : option bool) (s : pb) : pb * list qout * bool :=
  match nth_error (pb_conns s) k with
  | None => (s, [], false)
  | Some cid =>
    let s1 := mkPb (pb_active s) (firstn k (pb_conns s) ++ skipn (S k) (pb_conns s)) (pb_auths s) (pb_sess s) (pb_hist s)
                   (pb_closed s) (pb_next_cid s) (pb_tx s) in
    match res with
    | Some true =>
      match auth with
      | Some _ => (mkPb (pb_active s1) (pb_conns s1) (pb_auths s1 ++ [cid]) (pb_sess s1) (pb_hist s1) (pb_closed s1) (pb_next_cid s1) (pb_tx s1),
                   [], true)
      | None => let (s2, o2) := pb_open cid s1 in (s2, o2, true)
      end
    | _ => (pb_decr s1, [QGone cid], true)
    end
  end.

(** The listener yielded an accept future, driver.rs 113-128. *)
Definition pb_accept (s : pb) : pb * list qout :=
  if match max with Some m => m <=? pb_active s | None => false end then (s, [QRefused])
  else let cid := pb_next_cid s in
    (pb_incr (mkPb (pb_active s) (pb_conns s ++ [cid]) (pb_auths s) (pb_sess s) (pb_hist s) (pb_closed s) (cid + 1) (pb_tx s)),
     [QAccepted cid]).

(** broadcast::Sender::send: succeeds, as the driver holds a receiver. *)
Definition pb_send (m : option omsg) (topic : bytes) (s : pb) : pb * list qout :=
  match m with
  | None => (s, [QPublishErr])
  | Some b =>
    if pb_closed s then (s, [])                                       (* there is no socket to call it on *)
    else (mkPb (pb_active s) (pb_conns s) (pb_auths s) (pb_sess s) (pb_hist s ++ [mkPm topic b]) (pb_closed s) (pb_next_cid s) (pb_tx s),
          [QPublished (mkPm topic b)])
  end.

(** Atomic steps: those of the driver task and of the session tasks, in any order, and those of the application. *)
Inductive pb_event :=
| WSession (cid : N) (e : senv)
| WAuth (k : nat) (input : list io) (send_ok : bool)
| WConn (k : nat) (res : option bool)
| WAccept
| WPublish (topic payload : bytes)
| WTryPublish (topic payload : bytes)
| WClose.

Definition pb_act (s : pb) (ev : pb_event) : pb * list qout :=
  match ev with
  | WSession cid e => let '(s', o, _) := pb_session cid e s in (s', o)
  | WAuth k i b => let '(s', o, _) := pb_auth k i b s in (s', o)
  | WConn k r => let '(s', o, _) := pb_conn k r s in (s', o)
  | WAccept => pb_accept s
  | WPublish t p => pb_send (publish_outgoing min co p) t s            (* socket.rs 148-168 *)
  | WTryPublish t p => pb_send (try_publish_outgoing min co p) t s     (* socket.rs 172-191 *)
  | WClose => if pb_closed s then (s, []) else
              (mkPb (pb_active s) (pb_conns s) (pb_auths s) (pb_sess s) (pb_hist s) true (pb_next_cid s) (pb_tx s), [QClosed])
  end.

Fixpoint pb_run (s : pb) (evs : list pb_event) : pb * list qout :=
  match evs with
  | [] => (s, [])
  | ev :: evs' => let (s1, o1) := pb_act s ev in let (s2, o2) := pb_run s1 evs' in (s2, o1 ++ o2)
  end.

(** ** The poll functions *)

(** SubscriberSession::poll: iterate with the answers [es] until it returns.  [None]: still looping when the answers end. *)
Fixpoint sn_poll (cid : N) (es : list senv) (s : pb) : pb * list qout * option sres :=
  match es with
  | [] => (s, [], None)
  | e :: es' =>
    match pb_session cid e s with
    | (s1, o1, Some SCont) => let '(s2, o2, r) := sn_poll cid es' s1 in (s2, o1 ++ o2, r)
    | (s1, o1, r) => (s1, o1, r)
    end
  end.

(** Answers during one iteration of the driver's loop. *)
Record benv := mkBenv {
  b_auth : option (nat * list io * bool);
  b_conn : option (nat * option bool);
  b_accept : bool }.

(** One iteration, driver.rs 55-130.  [true] = `continue`, [false] = `Poll::Pending`. *)
Definition pb_iter (d : benv) (s : pb) : pb * list qout * bool :=
  let '(s1, o1, c1) := match b_auth d with Some (k, i, b) => pb_auth k i b s | None => (s, [], false) end in
  if c1 then (s1, o1, true) else
  let '(s2, o2, c2) := match b_conn d with Some (k, r) => pb_conn k r s1 | None => (s1, [], false) end in
  if c2 then (s2, o1 ++ o2, true) else
  if b_accept d then let (s3, o3) := pb_accept s2 in (s3, o1 ++ o2 ++ o3, true)
  else (s2, o1 ++ o2, false).

(** PubDriver::poll with answers [ds]; [true]: it returned Poll::Pending; [false]: not finished when the answers end. *)
Fixpoint pb_poll (ds : list benv) (s : pb) : pb * list qout * bool :=
  match ds with
  | [] => (s, [], false)
  | d :: ds' =>
    match pb_iter d s with
    | (s1, o1, true) => let '(s2, o2, r) := pb_poll ds' s1 in (s2, o1 ++ o2, r)
    | (s1, o1, false) => (s1, o1, true)
    end
  end.
End Pub.
