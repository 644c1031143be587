(** The subscriber socket, its background task and its sessions: msg-socket/src/sub/{socket,driver,session,stream,mod,stats}.rs.

    Every connection established by the driver has a number [cid].  [ss_iter] is one iteration of the loop of
    `PublisherSession::poll` (session.rs 106-155), [sb_iter] one iteration of the loop of `SubDriver::poll` (driver.rs 60-88).
    The driver and the sessions are separate tasks; [sb_act] gives their effects and those of the application's calls as atomic
    steps in any order, so the runs of [sb_run] include every schedule of these steps.

    Simplifications: tokio's cooperative budget (a spurious `Pending` of a channel, which wakes the task again) is not in this model (for the
    driver it is in Model/SubPass.v);
    the driver task, started by the first command (`ensure_active_driver`), does nothing before there is a command, so it is not
    distinguished whether it was started; the driver's loops over its publishers (driver.rs 130-140, 164-174, 341-395) treat one publisher at a
    time and collect the addresses to reset, redial or remove for after the loop; here this is done at once, which the other
    iterations do not notice, as they concern other addresses (Model/SubPass.v has the loops as they are written, C96 proves this). *)
From Verif Require Import Model.Base Model.Map Model.WirePubSub Model.Compression Model.Stats Model.Framed Model.WireAuth
  Model.Handshake Model.Utf8 Model.Backoff Model.JoinMap Model.PubDriver.

(** ** Addresses *)
(** std::net::SocketAddr (V4: ip, port; V6: ip, port, flowinfo, scope id) and PathBuf (IPC). *)
Inductive addr := AV4 (ip port : N) | AV6 (ip port flow scope : N) | APath (p : bytes).
#[global] Instance eqdec_addr : EqDec addr.
Proof. intros x y. unfold EqDec in *. destruct x, y; try (right; discriminate).
  - destruct (N.eq_dec ip ip0), (N.eq_dec port port0); [left; congruence|right; congruence..].
  - destruct (N.eq_dec ip ip0), (N.eq_dec port port0), (N.eq_dec flow flow0), (N.eq_dec scope scope0); [left; congruence|right; congruence..].
  - destruct (list_eq_dec Byte.byte_eq_dec p p0); [left; congruence|right; congruence].
Defined.
(** IpAddr::is_unspecified: 0.0.0.0 or :: *)
Definition unspecified (a : addr) : bool :=
  match a with AV4 ip _ => ip =? 0 | AV6 ip _ _ _ => ip =? 0 | APath _ => false end.
(** `endpoint.set_ip(IpAddr::V4(Ipv4Addr::LOCALHOST))`: 127.0.0.1; a V6 address becomes a V4 one (SocketAddr::set_ip). *)
Definition set_localhost (a : addr) : addr :=
  match a with AV4 _ p => AV4 2130706433 p | AV6 _ p _ _ => AV4 2130706433 p | APath p => APath p end.

(** ** Data *)
(** Command, sub/mod.rs 42-54 *)
Inductive scommand := CSub (t : bytes) | CUnsub (t : bytes) | CConnect (a : addr) | CDisconnect (a : addr) | CShutdown.
(** SessionCommand, session.rs 22-25 *)
Inductive sess_cmd := SSub (t : bytes) | SUnsub (t : bytes).
(** TopicMessage, stream.rs 53-58 *)
Record tmsg := mkTm { tm_ts : N; tm_ctype : byte; tm_topic : bytes; tm_payload : bytes }.
(** stream.rs 72-80 *)
Definition tmsg_of (m : ps_msg) : tmsg := mkTm (ps_timestamp m) (ps_ctype m) (from_utf8_lossy (ps_topic m)) (ps_payload m).

(** Result of `try_send` on a bounded channel. *)
Inductive tsend := TSent | TFull | TClosed.

(** A connection: the PublisherSession (session.rs 29-41), the two queues of its Channel, and who still holds an end.
    The session's stats (stats.rs 49-56): bytes_rx and the latency average. *)
Record sconn := mkSc {
  sc_addr : addr;
  sc_egress : list ps_msg;        (* egress *)
  sc_flush : bool;                (* stream.flush *)
  sc_in : list tmsg;              (* messages on the way to the driver *)
  sc_cmds : list sess_cmd;        (* commands on the way to the session *)
  sc_alive : bool;                (* the session task is running *)
  sc_held : bool;                 (* the driver holds its end of the channel *)
  sc_rx : N;                      (* stats.bytes_rx *)
  sc_lat : avg }.                 (* stats.latency, latency_idx *)

Definition sc_new (a : addr) : sconn := mkSc a [] false [] [] true true 0 avg0.
Definition sc_set_egress (x : sconn) e fl := mkSc (sc_addr x) e fl (sc_in x) (sc_cmds x) (sc_alive x) (sc_held x) (sc_rx x) (sc_lat x).
Definition sc_set_in (x : sconn) i := mkSc (sc_addr x) (sc_egress x) (sc_flush x) i (sc_cmds x) (sc_alive x) (sc_held x) (sc_rx x) (sc_lat x).
Definition sc_set_cmds (x : sconn) c := mkSc (sc_addr x) (sc_egress x) (sc_flush x) (sc_in x) c (sc_alive x) (sc_held x) (sc_rx x) (sc_lat x).
Definition sc_set_stats (x : sconn) n l := mkSc (sc_addr x) (sc_egress x) (sc_flush x) (sc_in x) (sc_cmds x) (sc_alive x) (sc_held x) n l.
(** The session task ends: its Channel is dropped, with the commands in it. *)
Definition sc_finish (x : sconn) := mkSc (sc_addr x) [] (sc_flush x) (sc_in x) [] false (sc_held x) (sc_rx x) (sc_lat x).
(** The driver drops its Channel, with the messages in it. *)
Definition sc_release (x : sconn) := mkSc (sc_addr x) (sc_egress x) (sc_flush x) [] (sc_cmds x) (sc_alive x) false (sc_rx x) (sc_lat x).

(** channel(1024, 64), driver.rs 305 *)
Definition IN_CAP : N := 1024.
Definition CMD_CAP : N := 64.
(** DEFAULT_BUFFER_SIZE, msg-socket/src/lib.rs; the command channel, socket.rs 128 *)
Definition COMMAND_CAP : N := 1024.
(** maximum number of reconnection attempts, driver.rs 106 *)
Definition MAX_RETRIES : N := 16.

(** ConnectionState, connection/state.rs 9-22 *)
Inductive pstate := PActive (cid : N) | PInactive (b : backoff).

(** Results of the socket's functions: Ok(()), SubError::{ReservedTopic, ChannelFull, NoValidEndpoints / Io}; [AWait]: the async call is
    waiting for room in the command channel.  (SocketClosed cannot happen: the driver never ends.) *)
Inductive api_res := AOk | AReserved | AFull | ANoEndpoint | AWait.
(** The socket's functions; [try]: the try_ variant.  For connect/disconnect: the outcome of lookup_host (its first address) or of
    parsing the string; [None] = failure. *)
Inductive api :=
| ApSub (try : bool) (t : bytes) | ApUnsub (try : bool) (t : bytes)
| ApConnect (try : bool) (a : option addr) | ApDisconnect (try : bool) (a : option addr).

(** Observable effects and ghost marks, in order. *)
Inductive uout :=
| UApi (f : api) (r : api_res)                        (* the application's call returned *)
| UCmd (c : scommand)                                 (* the driver takes a command *)
| UConnect (a : addr)                                 (* a connection attempt is started *)
| UConnectFailed (a : addr)                           (* ... failed *)
| UTaskPanic (a : addr)                               (* ... panicked *)
| UAlready (a : addr)                                 (* ... succeeded, but there is a connection: dropped *)
| UOpen (cid : N) (a : addr)                          (* ... succeeded: session started *)
| UTry (cid : N) (c : sess_cmd) (r : tsend)           (* the driver sends a command to a session *)
| UGot (cid : N) (c : sess_cmd)                       (* the session takes it *)
| UBusy (cid : N)                                     (* the session finds its connection not ready for writing *)
| UWire (cid : N) (m : ps_msg) (ok : bool)            (* the session gives a frame to its connection *)
| URecv (cid : N) (m : ps_msg) (now : N) (r : tsend)  (* the session receives a frame, at time [now], and passes it to the driver *)
| URecvErr (cid : N)                                  (* the session got an error from the connection *)
| UUndecodable (cid : N) (m : tmsg)                   (* the driver cannot decompress the message *)
| UDeliver (cid : N) (m : tmsg) (a : addr) (p : bytes) (r : tsend) (* the driver passes a message on to the socket: source, payload *)
| UYield (cid : N) (a : addr) (t p : bytes)           (* the application gets a message: source, topic, payload *)
| UReset (a : addr)                                   (* the publisher is set to inactive, with a new back-off *)
| UGaveUp (a : addr)                                  (* the publisher is removed after the last retry *)
| UClosed (cid : N) (lost : list tmsg)                (* the driver drops its end of the session's channel *)
| UEnd (cid : N)                                      (* the session task ends: the connection is closed *)
| UCrash (cid : N)                                    (* the session task panics: the connection is closed *)
| UDropped.                                           (* the socket is dropped *)

(** Socket and driver state: sub/driver.rs 30-48, socket.rs 26-40.  [sb_out]: the ingress queue with the ghost [cid]. *)
Record sb := mkSb {
  sb_cmdq : list scommand;                (* from_socket *)
  sb_out : list (N * addr * bytes * bytes); (* to_socket *)
  sb_dropped : bool;                      (* the SubSocket is gone *)
  sb_tasks : joinmap addr;                (* connection_tasks *)
  sb_topics : list bytes;                 (* subscribed_topics *)
  sb_pubs : list (addr * pstate);         (* publishers *)
  sb_stats : list (addr * N);             (* stats: the connection whose SessionStats is registered *)
  sb_conns : list (N * sconn);            (* all connections ever made *)
  sb_next : N }.                          (* ghost: fresh numbers *)

Definition sb_init : sb := mkSb [] [] false jm_new [] [] [] [] 0.

Definition sb_set_cmdq (s : sb) q := mkSb q (sb_out s) (sb_dropped s) (sb_tasks s) (sb_topics s) (sb_pubs s) (sb_stats s) (sb_conns s) (sb_next s).
Definition sb_set_out (s : sb) q := mkSb (sb_cmdq s) q (sb_dropped s) (sb_tasks s) (sb_topics s) (sb_pubs s) (sb_stats s) (sb_conns s) (sb_next s).
Definition sb_set_tasks (s : sb) j := mkSb (sb_cmdq s) (sb_out s) (sb_dropped s) j (sb_topics s) (sb_pubs s) (sb_stats s) (sb_conns s) (sb_next s).
Definition sb_set_topics (s : sb) t := mkSb (sb_cmdq s) (sb_out s) (sb_dropped s) (sb_tasks s) t (sb_pubs s) (sb_stats s) (sb_conns s) (sb_next s).
Definition sb_set_pubs (s : sb) p := mkSb (sb_cmdq s) (sb_out s) (sb_dropped s) (sb_tasks s) (sb_topics s) p (sb_stats s) (sb_conns s) (sb_next s).
Definition sb_set_stats (s : sb) p := mkSb (sb_cmdq s) (sb_out s) (sb_dropped s) (sb_tasks s) (sb_topics s) (sb_pubs s) p (sb_conns s) (sb_next s).
Definition sb_set_conns (s : sb) c := mkSb (sb_cmdq s) (sb_out s) (sb_dropped s) (sb_tasks s) (sb_topics s) (sb_pubs s) (sb_stats s) c (sb_next s).

(** ** The session *)
(** What poll_send (stream.rs 25-43) answers: Ready(Ok), Ready(Err), Pending. *)
Inductive sendans := SaOk | SaErr | SaBusy.
(** Answers of the environment in one iteration of a session's loop. *)
Record yenv := mkYenv {
  y_flush : bool;              (* poll_flush().is_ready() *)
  y_next : ps_next;            (* conn.poll_next *)
  y_sends : list sendans;      (* the successive answers to poll_send; when used up: Pending *)
  y_now : N }.                 (* unix_micros() *)

(** The loop over the egress queue, session.rs 124-133: remaining queue, effects, progress, whether stream.flush is set. *)
Fixpoint eg_loop (cid : N) (eg : list ps_msg) (ans : list sendans) : list ps_msg * list uout * bool * bool :=
  match eg with
  | [] => ([], [], false, false)
  | m :: rest =>
    match ans with
    | SaOk :: ans' => let '(e, o, _, _) := eg_loop cid rest ans' in (e, UWire cid m true :: o, true, true)
    | SaErr :: ans' => let '(e, o, _, f) := eg_loop cid rest ans' in (e, UWire cid m false :: o, true, f)
    | _ => (rest ++ [m], [UBusy cid], false, false)        (* push_back: 130 *)
    end
  end.

(** session.rs 65-73, 95-99: the frame for a command.  [None] is the panic of Message::new for an oversized topic. *)
Definition cmd_frame (now : N) (c : sess_cmd) : option ps_msg :=
  match c with SSub t => ps_new_sub now t | SUnsub t => ps_new_unsub now t end.

(** on_incoming for a message, session.rs 77-88.  `unix_micros` before the message's timestamp: saturating_sub.
    (The panic of update_latency for the 2^64-th message is not modelled here, see Model/Stats.v.) *)
Definition ss_incoming (cid now : N) (m : ps_msg) (x : sconn) : sconn * list uout :=
  let t := tmsg_of m in
  let x1 := sc_set_stats x (sc_rx x + blen (tm_payload t)) (match avg_update (sc_lat x) (now - tm_ts t) with Some a => a | None => sc_lat x end) in
  if negb (sc_held x) then (x1, [URecv cid m now TClosed])
  else if blen (sc_in x) <? IN_CAP then (sc_set_in x1 (sc_in x ++ [t]), [URecv cid m now TSent])
  else (x1, [URecv cid m now TFull]).

(** One iteration of PublisherSession::poll, session.rs 107-155 with stream.rs 63-85. *)
Definition ss_iter (cid : N) (e : yenv) (x : sconn) : sconn * list uout * sres :=
  let fl := if sc_flush x && y_flush e then false else sc_flush x in                        (* stream.rs 67-70 *)
  let x := sc_set_egress x (sc_egress x) fl in
  match y_next e with
  | PnMsg m => let (x1, o) := ss_incoming cid (y_now e) m x in (x1, o, SCont)                (* 108-113 *)
  | PnErr => (x, [URecvErr cid], SCont)
  | PnEof | PnPending =>                                   (* stream.rs 84: the end of the stream gives Poll::Pending *)
    let '(eg, o, progress, f) := eg_loop cid (sc_egress x) (y_sends e) in
    let x := sc_set_egress x eg (f || fl) in
    if progress then (x, o, SCont)                                                          (* 135-137 *)
    else match sc_cmds x with                                                               (* 139 *)
    | c :: cs =>
      match cmd_frame (y_now e) c with
      | Some m => (sc_set_cmds (sc_set_egress x (eg ++ [m]) (f || fl)) cs, o ++ [UGot cid c], SCont)   (* 141-144 *)
      | None => (sc_finish x, o ++ [UGot cid c; UCrash cid], SCrash)
      end
    | [] => if sc_held x then (x, o, SPend)                                                 (* 153 *)
            else (sc_finish x, o ++ [UEnd cid], SDone)                                      (* 145-148 *)
    end
  end.

Definition sb_session (cid : N) (e : yenv) (s : sb) : sb * list uout * option sres :=
  match mget cid (sb_conns s) with
  | None => (s, [], None)
  | Some x =>
    if sc_alive x then
      match ss_iter cid e x with (x', o, r) => (sb_set_conns s (mset cid x' (sb_conns s)), o, Some r) end
    else (s, [], None)
  end.

(** ** The driver *)
Section Sub.
Variables (token : option bytes)        (* SubOptions::auth_token *)
          (ingress : N)                 (* ingress_buffer_size *)
          (initial : N)                 (* initial_backoff *)
          (D : decompressors).

(** Any iteration order of a hash map or set with the given keys: those in [order] first. *)
Definition arrange {K} {E : EqDec K} (order keys : list K) : list K :=
  filter (fun k => smem k keys) (nodup eq_dec order) ++ filter (fun k => negb (smem k order)) keys.

(** The driver drops its end of a publisher's channel, if it has one. *)
Definition sb_release (st : option pstate) (s : sb) : sb * list uout :=
  match st with
  | Some (PActive cid) =>
    match mget cid (sb_conns s) with
    | Some x => (sb_set_conns s (mset cid (sc_release x) (sb_conns s)), [UClosed cid (sc_in x)])
    | None => (s, [])
    end
  | _ => (s, [])
  end.

(** reset_publisher, driver.rs 100-109 *)
Definition sb_reset (a : addr) (s : sb) : sb * list uout :=
  let (s1, o) := sb_release (mget a (sb_pubs s)) s in
  (sb_set_pubs s1 (mset a (PInactive (bo_new initial MAX_RETRIES)) (sb_pubs s1)), o ++ [UReset a]).

(** Channel::try_send of the driver's end (msg-common/src/channel.rs 65-71). *)
Definition sc_try (c : sess_cmd) (x : sconn) : sconn * tsend :=
  if negb (sc_alive x) then (x, TClosed)
  else if blen (sc_cmds x) <? CMD_CAP then (sc_set_cmds x (sc_cmds x ++ [c]), TSent)
  else (x, TFull).

(** The loops of subscribe / unsubscribe over the publishers, driver.rs 130-148, 164-182. *)
Fixpoint sb_tell (c : sess_cmd) (l : list (addr * pstate)) (s : sb) : sb * list uout :=
  match l with
  | [] => (s, [])
  | (a, PActive cid) :: l' =>
    match mget cid (sb_conns s) with
    | Some x =>
      let (x', r) := sc_try c x in
      let s1 := sb_set_conns s (mset cid x' (sb_conns s)) in
      let (s2, o2) := match r with TClosed => sb_reset a s1 | _ => (s1, []) end in
      let (s3, o3) := sb_tell c l' s2 in (s3, UTry cid c r :: o2 ++ o3)
    | None => sb_tell c l' s
    end
  | (_, PInactive _) :: l' => sb_tell c l' s
  end.

(** connect, driver.rs 228-289: only starts the task; its outcome is an answer of the environment, see [sb_join]. *)
Definition sb_connect (a : addr) (s : sb) : sb * list uout :=
  let (j, started) := jm_spawn a (sb_tasks s) in (sb_set_tasks s j, if started then [UConnect a] else []).

(** on_command, driver.rs 192-226, with subscribe 125-157 and unsubscribe 160-190. *)
Definition sb_command (c : scommand) (s : sb) : sb * list uout :=
  match c with
  | CSub t =>
    if smem t (sb_topics s) then (s, [])
    else let s1 := sb_set_topics s (sins t (sb_topics s)) in sb_tell (SSub t) (sb_pubs s1) s1
  | CUnsub t =>
    if smem t (sb_topics s) then let s1 := sb_set_topics s (sdel t (sb_topics s)) in sb_tell (SUnsub t) (sb_pubs s1) s1
    else (s, [])
  | CConnect a =>
    if mem a (sb_pubs s) then (s, [])
    else let (s1, o1) := sb_connect a s in let (s2, o2) := sb_reset a s1 in (s2, o1 ++ o2)
  | CDisconnect a =>
    match mget a (sb_pubs s) with
    | Some st => let (s1, o1) := sb_release (Some st) s in
                 (sb_set_stats (sb_set_pubs s1 (mdel a (sb_pubs s1))) (mdel a (sb_stats s1)), o1)
    | None => (s, [])
    end
  | CShutdown => (s, [])
  end.

(** driver.rs 67-71: a command from the socket, if there is one. *)
Definition sb_next_command (s : sb) : sb * list uout * bool :=
  match sb_cmdq s with
  | [] => (s, [], false)
  | c :: q => let (s1, o) := sb_command c (sb_set_cmdq s q) in (s1, UCmd c :: o, true)
  end.

(** The loop of on_connection over the subscribed topics, driver.rs 317-321. *)
Fixpoint sb_greet (cid : N) (ts : list bytes) (x : sconn) : sconn * list uout :=
  match ts with
  | [] => (x, [])
  | t :: ts' => let (x1, r) := sc_try (SSub t) x in let (x2, o) := sb_greet cid ts' x1 in (x2, UTry cid (SSub t) r :: o)
  end.

(** on_connection, driver.rs 291-327. *)
Definition sb_connected (a : addr) (order : list bytes) (s : sb) : sb * list uout :=
  match mget a (sb_pubs s) with
  | Some (PActive _) => (s, [UAlready a])                                                  (* 292-296 *)
  | _ =>
    let cid := sb_next s in
    let (x, o) := sb_greet cid (arrange order (sb_topics s)) (sc_new a) in
    (mkSb (sb_cmdq s) (sb_out s) (sb_dropped s) (sb_tasks s) (sb_topics s) (mset a (PActive cid) (sb_pubs s))
          (mset a cid (sb_stats s)) (mset cid x (sb_conns s)) (cid + 1),
     UOpen cid a :: o)
  end.

(** How the connection task ended: connect failed; panicked; connected, and then the handshake (if a token is set) with the given
    answers of the connection. *)
Inductive join_res := JFail | JPanic | JConn (send_ok : bool) (input : list io).

(** driver.rs 74-86: the [k]-th connection task has finished.  [true]: handled and `continue`. *)
Definition sb_join (k : nat) (r : join_res) (order : list bytes) (s : sb) : sb * list uout * bool :=
  match nth_error (jm_tasks (sb_tasks s)) k with
  | None => (s, [], false)
  | Some a =>
    match r with
    | JFail => (sb_set_tasks s (fst (jm_join k false (sb_tasks s))), [UConnectFailed a], true)
    | JPanic => (sb_set_tasks s (fst (jm_join k true (sb_tasks s))), [UTaskPanic a], false)      (* `Some(Err(_))` is not matched *)
    | JConn ok input =>
      match auth_client token ok input with
      | (ClOk, _, _) =>
        let (s2, o) := sb_connected a order (sb_set_tasks s (fst (jm_join k false (sb_tasks s)))) in (s2, o, true)
      | (ClErr, _, _) => (sb_set_tasks s (fst (jm_join k false (sb_tasks s))), [UConnectFailed a], true)
      | (ClPanic, _, _) => (sb_set_tasks s (fst (jm_join k true (sb_tasks s))), [UTaskPanic a], false)
      | (ClRunning, _, _) => (s, [], false)
      end
    end
  end.

(** to_socket.try_send, driver.rs 356-361. *)
Definition sb_pass (cid : N) (a : addr) (m : tmsg) (p : bytes) (s : sb) : sb * list uout :=
  if sb_dropped s then (s, [UDeliver cid m a p TClosed])
  else if blen (sb_out s) <? ingress then (sb_set_out s (sb_out s ++ [(cid, a, tm_topic m, p)]), [UDeliver cid m a p TSent])
  else (s, [UDeliver cid m a p TFull]).

(** poll_publishers for one publisher, driver.rs 341-409.  [true]: progress. *)
Definition sb_entry (a : addr) (now : N) (s : sb) : sb * list uout * bool :=
  match mget a (sb_pubs s) with
  | None => (s, [], false)
  | Some (PActive cid) =>
    match mget cid (sb_conns s) with
    | None => (s, [], false)
    | Some x =>
      match sc_in x with
      | m :: rest =>
        let s1 := sb_set_conns s (mset cid (sc_set_in x rest) (sb_conns s)) in
        match try_decompress D (tm_ctype m) (tm_payload m) with
        | None => (s1, [UUndecodable cid m], false)                                        (* 348-351: `continue` without progress *)
        | Some p => let (s2, o) := sb_pass cid a m p s1 in (s2, o, true)
        end
      | [] => if sc_alive x then (s, [], false)
              else let (s1, o) := sb_reset a s in (s1, o, true)                            (* 365-370, 404-406 *)
      end
    end
  | Some (PInactive b) =>
    match bo_poll now b with
    | (b', BYield _) =>
      let s1 := sb_set_pubs s (mset a (PInactive b') (sb_pubs s)) in
      if jm_contains a (sb_tasks s) then (s1, [], true)
      else let (s2, o) := sb_connect a s1 in (s2, o, true)                                 (* 381-387, 399-401 *)
    | (_, BEnd) => (sb_set_pubs s (mdel a (sb_pubs s)), [UGaveUp a], false)                (* 388-391, 409-411 *)
    | (b', BPending) => (sb_set_pubs s (mset a (PInactive b') (sb_pubs s)), [], false)
    | (_, BPanic) => (s, [], false)   (* simplification: Duration overflow, needs a back-off of 2^63 s to have elapsed *)
    end
  end.

(** ** The application *)
(** socket.rs 48-90 (connect, try_connect, disconnect, try_disconnect), 97-115 (paths), 184-242 (subscribe ..). *)
Definition MSG : bytes := [x4d; x53; x47].
Definition api_command (f : api) : scommand + api_res :=
  match f with
  | ApSub _ t => if starts_with MSG t then inr AReserved else inl (CSub t)
  | ApUnsub _ t => if starts_with MSG t then inr AReserved else inl (CUnsub t)
  | ApConnect _ (Some a) => inl (CConnect (if unspecified a then set_localhost a else a))
  | ApDisconnect _ (Some a) => inl (CDisconnect a)
  | ApConnect _ None | ApDisconnect _ None => inr ANoEndpoint
  end.
Definition api_try (f : api) : bool := match f with ApSub b _ | ApUnsub b _ | ApConnect b _ | ApDisconnect b _ => b end.

(** send_command, try_send_command, socket.rs 246-260. *)
Definition sb_call (f : api) (s : sb) : sb * list uout :=
  if sb_dropped s then (s, []) else                               (* there is no socket to call it on *)
  match api_command f with
  | inr r => (s, [UApi f r])
  | inl c => if blen (sb_cmdq s) <? COMMAND_CAP then (sb_set_cmdq s (sb_cmdq s ++ [c]), [UApi f AOk])
             else (s, [UApi f (if api_try f then AFull else AWait)])
  end.

(** Drop for SubSocket, socket.rs 275-280. *)
Definition sb_drop (s : sb) : sb * list uout :=
  if sb_dropped s then (s, []) else
  (mkSb (if blen (sb_cmdq s) <? COMMAND_CAP then sb_cmdq s ++ [CShutdown] else sb_cmdq s) [] true (sb_tasks s) (sb_topics s)
        (sb_pubs s) (sb_stats s) (sb_conns s) (sb_next s), [UDropped]).

(** Stream for SubSocket, socket.rs 282-288: poll_next when a message is there. *)
Definition sb_take (s : sb) : sb * list uout :=
  match sb_out s with
  | (cid, a, t, p) :: q => (sb_set_out s q, [UYield cid a t p])
  | [] => (s, [])
  end.

(** stats().bytes_rx(addr), stats().avg_latency(addr): stats.rs 37-46. *)
Definition sb_bytes_rx (a : addr) (s : sb) : option N :=
  match mget a (sb_stats s) with Some cid => match mget cid (sb_conns s) with Some x => Some (sc_rx x) | None => None end | None => None end.
Definition sb_latency (a : addr) (s : sb) : option N :=
  match mget a (sb_stats s) with Some cid => match mget cid (sb_conns s) with Some x => Some (av_value (sc_lat x)) | None => None end | None => None end.

(** ** Atomic steps, in any order *)
Inductive sb_event :=
| YSess (cid : N) (e : yenv)
| YEntry (a : addr) (now : N)
| YCommand
| YJoin (k : nat) (r : join_res) (order : list bytes)
| YApi (f : api)
| YTake
| YDrop.

Definition sb_act (s : sb) (ev : sb_event) : sb * list uout :=
  match ev with
  | YSess cid e => let '(s', o, _) := sb_session cid e s in (s', o)
  | YEntry a now => let '(s', o, _) := sb_entry a now s in (s', o)
  | YCommand => let '(s', o, _) := sb_next_command s in (s', o)
  | YJoin k r order => let '(s', o, _) := sb_join k r order s in (s', o)
  | YApi f => sb_call f s
  | YTake => sb_take s
  | YDrop => sb_drop s
  end.

Fixpoint sb_run (s : sb) (evs : list sb_event) : sb * list uout :=
  match evs with
  | [] => (s, [])
  | ev :: evs' => let (s1, o1) := sb_act s ev in let (s2, o2) := sb_run s1 evs' in (s2, o1 ++ o2)
  end.

(** ** The poll functions *)
(** PublisherSession::poll with the answers [es]; [None]: still looping when they end. *)
Fixpoint ss_poll (cid : N) (es : list yenv) (s : sb) : sb * list uout * option sres :=
  match es with
  | [] => (s, [], None)
  | e :: es' =>
    match sb_session cid e s with
    | (s1, o1, Some SCont) => let '(s2, o2, r) := ss_poll cid es' s1 in (s2, o1 ++ o2, r)
    | (s1, o1, r) => (s1, o1, r)
    end
  end.

(** Answers during one iteration of the driver's loop. *)
Record ydenv := mkYd {
  yd_now : N;                                           (* the time *)
  yd_order : list addr;                                 (* iteration order of `publishers` *)
  yd_join : option (nat * join_res * list bytes) }.     (* a finished connection task; iteration order of the topics *)

(** poll_publishers, driver.rs 335-417, over all publishers. *)
Fixpoint sb_entries (l : list addr) (now : N) (s : sb) : sb * list uout * bool :=
  match l with
  | [] => (s, [], false)
  | a :: l' =>
    let '(s1, o1, p1) := sb_entry a now s in
    let '(s2, o2, p2) := sb_entries l' now s1 in (s2, o1 ++ o2, p1 || p2)
  end.

(** One iteration of SubDriver::poll, driver.rs 60-88.  [true] = `continue`, [false] = `Poll::Pending`. *)
Definition sb_iter (d : ydenv) (s : sb) : sb * list uout * bool :=
  let '(s1, o1, p) := sb_entries (arrange (yd_order d) (mkeys (sb_pubs s))) (yd_now d) s in
  if p then (s1, o1, true) else
  let '(s2, o2, c) := sb_next_command s1 in
  if c then (s2, o1 ++ o2, true) else
  let '(s3, o3, j) := match yd_join d with Some (k, r, order) => sb_join k r order s2 | None => (s2, [], false) end in
  (s3, o1 ++ o2 ++ o3, j).

(** SubDriver::poll; [true]: it returned Poll::Pending (it never returns Ready); [false]: not finished when the answers end. *)
Fixpoint sb_poll (ds : list ydenv) (s : sb) : sb * list uout * bool :=
  match ds with
  | [] => (s, [], false)
  | d :: ds' =>
    match sb_iter d s with
    | (s1, o1, true) => let '(s2, o2, r) := sb_poll ds' s1 in (s2, o1 ++ o2, r)
    | (s1, o1, false) => (s1, o1, true)
    end
  end.
End Sub.
