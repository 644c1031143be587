(** The request socket and its background task: msg-socket/src/req/{socket,driver,mod}.rs.

    [rd_iter] is one iteration of the `loop` in `<ReqDriver as Future>::poll` (driver.rs 260-389).  The
    answers of everything polled in it (timers, connection, socket buffers, connection task) are the
    fields of an [env]; [rd_step] interleaves iterations with the calls made by the application.
    Whether an iteration ends with `continue` or `Poll::Pending` makes no difference to the state, as
    the next one starts at the top of the loop in both cases.
    The connection itself (Framed over an Io) is represented by the answers of poll_next / poll_ready /
    start_send / poll_flush / poll_close; Model/Framed.v models how poll_next computes its answers. *)
From Verif Require Import Model.Base Model.Map Model.WireReqRep Model.Compression Model.Backoff.

(** ReqOptions, req/mod.rs 47-67 (auth_token is used by the connection task, see Model/Handshake.v;
    backpressure_boundary only influences the answers of poll_ready). *)
Record ropts := mkROpts {
  ro_timeout : N;
  ro_blocking_connect : bool;
  ro_backoff_duration : N;
  ro_flush_interval : option N;
  ro_retry_attempts : option N;
  ro_min_compress : N }.

(** What the caller of request() gets (req/mod.rs 24-37, the variants produced on this path). *)
Inductive outcome :=
| OOk (payload : bytes)      (* Ok(payload) *)
| OTimeout                   (* Err(Timeout) *)
| ODecompress                (* Err(Wire(Decompression)) *)
| OClosed.                   (* Err(SocketClosed): the oneshot sender was dropped, or send failed *)

(** ConnectionState, connection/state.rs 9-20. *)
Inductive rconn := RActive | RInactive (b : backoff).

(** ReqDriver, driver.rs 38-69, plus the contents of the mpsc channel.  A oneshot sender is the number
    of the request() call that holds the receiver. *)
Record rd := mkRd {
  rd_id : N;                          (* id_counter *)
  rd_cmds : list (N * bytes);         (* from_socket: (call, payload), oldest first *)
  rd_dropped : bool;                  (* the ReqSocket (the only mpsc sender) was dropped *)
  rd_task : bool;                     (* conn_task.is_some() *)
  rd_conn : rconn;                    (* conn_state *)
  rd_egress : list rr_msg;            (* egress_queue, front first *)
  rd_pending : list (N * (N * N));    (* pending_requests: id -> (start, call) *)
  rd_flush : bool;                    (* should_flush *)
  rd_tx : N;                          (* stats.bytes_tx *)
  rd_rx : N;                          (* stats.bytes_rx *)
  rd_rtts : list N;                   (* arguments of stats.update_rtt, oldest first *)
  rd_done : bool }.                   (* the task has ended *)

(** Observable effects, in order. *)
Inductive out :=
| Resolve (call : N) (o : outcome)    (* a request() call gets its result *)
| Accept (now call : N) (m : rr_msg)  (* ghost: at time [now] the call's frame was put into egress_queue *)
| Handed (m : rr_msg) (ok : bool)     (* start_send(m) was called on the current connection *)
| StartConnect                        (* transport.connect(addr) was called *)
| Connected                           (* a new connection became active *)
| ConnectFailed                       (* the connection attempt in flight failed *)
| CheckedTimeouts (now : N).          (* ghost: check_timeouts ran *)

(** Answers of the environment during one iteration. *)
Inductive next_ans := NxMsg (m : rr_msg) | NxErr | NxEof | NxPending.
Record env := mkEnv {
  e_now : N;                          (* Instant::now() (one value for the whole iteration) *)
  e_flush_tick : bool;                (* flush_interval.poll_tick(cx).is_ready(), if there is one *)
  e_flush_ok : bool;                  (* poll_flush returned Ready(Ok) *)
  e_task : option bool;               (* conn_task.poll: None = Pending, Some ok *)
  e_next : next_ans;                  (* channel.poll_next *)
  e_ready : bool;                     (* channel.poll_ready(..).is_ready() *)
  e_send : bool;                      (* channel.start_send(..).is_ok() *)
  e_ticks : nat;                      (* how often timeout_check_interval was ready *)
  e_recv : bool;                      (* false: from_socket.poll_recv is (spuriously) Pending *)
  e_close : bool }.                   (* channel.poll_close is ready *)

Inductive ctl := CContinue | CPending | CDone.

(** Duration::from_millis(20), 16: driver.rs 245 and socket.rs 116. *)
Definition reconnect_backoff : backoff := bo_new 20000000 16.

(** try_connect, socket.rs 106-151: the driver as spawned. *)
Definition rd_init : rd := mkRd 0 [] false false (RInactive reconnect_backoff) [] [] false 0 0 [] false.

Section Driver.
Variables (o : ropts) (co : option compressor) (D : decompressors).

(** on_message, driver.rs 138-162. *)
Definition rd_on_message (now : N) (s : rd) (m : rr_msg) : rd * list out :=
  match mget (rr_id m) (rd_pending s) with
  | None => (s, [])
  | Some (start, c) =>
    let p' := mdel (rr_id m) (rd_pending s) in
    match try_decompress D (rr_ctype m) (rr_payload m) with
    | None => (mkRd (rd_id s) (rd_cmds s) (rd_dropped s) (rd_task s) (rd_conn s) (rd_egress s) p' (rd_flush s)
                    (rd_tx s) (rd_rx s) (rd_rtts s) (rd_done s), [Resolve c ODecompress])
    | Some x => (mkRd (rd_id s) (rd_cmds s) (rd_dropped s) (rd_task s) (rd_conn s) (rd_egress s) p' (rd_flush s)
                      (rd_tx s) (rd_rx s + rr_size m) (rd_rtts s ++ [(now - start) / 1000]) (rd_done s),
                 [Resolve c (OOk x)])
    end
  end.

(** on_command, driver.rs 165-193.  `insert` drops the sender it replaces, if any. *)
Definition rd_on_command (now : N) (s : rd) (rest : list (N * bytes)) (c : N) (payload : bytes) : rd * list out :=
  let m := req_into_wire (rd_id s) (req_outgoing (ro_min_compress o) co payload) in
  (mkRd (wrapping_add32 (rd_id s) 1) rest (rd_dropped s) (rd_task s) (rd_conn s) (rd_egress s ++ [m])
        (mset (rr_id m) (now, c) (rd_pending s)) (rd_flush s) (rd_tx s) (rd_rx s) (rd_rtts s) (rd_done s),
   Accept now c m :: match mget (rr_id m) (rd_pending s) with Some (_, c') => [Resolve c' OClosed] | None => [] end).

(** check_timeouts, driver.rs 197-217.  [now.duration_since(start)] saturates at 0. *)
Definition timed_out_ids (now : N) (p : list (N * (N * N))) : list N :=
  map fst (filter (fun e => ro_timeout o <? now - fst (snd e)) p).
Fixpoint remove_timed_out (ids : list N) (p : list (N * (N * N))) : list (N * (N * N)) * list out :=
  match ids with
  | [] => (p, [])
  | id :: ids' =>
    match mget id p with
    | Some (_, c) => let (p', os) := remove_timed_out ids' (mdel id p) in (p', Resolve c OTimeout :: os)
    | None => remove_timed_out ids' p
    end
  end.
Definition rd_check_timeouts (now : N) (s : rd) : rd * list out :=
  let (p', os) := remove_timed_out (timed_out_ids now (rd_pending s)) (rd_pending s) in
  (mkRd (rd_id s) (rd_cmds s) (rd_dropped s) (rd_task s) (rd_conn s) (rd_egress s) p' (rd_flush s)
        (rd_tx s) (rd_rx s) (rd_rtts s) (rd_done s), CheckedTimeouts now :: os).
(** `while timeout_check_interval.poll_tick(cx).is_ready()`, driver.rs 365-367. *)
Fixpoint rd_ticks (n : nat) (now : N) (s : rd) : rd * list out :=
  match n with
  | O => (s, [])
  | S n' => let (s1, o1) := rd_check_timeouts now s in let (s2, o2) := rd_ticks n' now s1 in (s2, o1 ++ o2)
  end.

Definition set_conn (s : rd) (task : bool) (c : rconn) : rd :=
  mkRd (rd_id s) (rd_cmds s) (rd_dropped s) task c (rd_egress s) (rd_pending s) (rd_flush s)
       (rd_tx s) (rd_rx s) (rd_rtts s) (rd_done s).
Definition set_flush (s : rd) (f : bool) : rd :=
  mkRd (rd_id s) (rd_cmds s) (rd_dropped s) (rd_task s) (rd_conn s) (rd_egress s) (rd_pending s) f
       (rd_tx s) (rd_rx s) (rd_rtts s) (rd_done s).

(** reset_connection, driver.rs 242-247. *)
Definition rd_reset (s : rd) : rd := set_conn s (rd_task s) (RInactive reconnect_backoff).

(** The task ends (`Poll::Ready(())`): the driver is dropped, with the receiver of the commands and all
    pending oneshot senders. *)
Definition rd_finish (s : rd) : rd * list out :=
  (mkRd (rd_id s) [] (rd_dropped s) false (rd_conn s) (rd_egress s) [] (rd_flush s)
        (rd_tx s) (rd_rx s) (rd_rtts s) true,
   map (fun p => Resolve (snd (snd p)) OClosed) (rd_pending s) ++ map (fun p => Resolve (fst p) OClosed) (rd_cmds s)).

(** driver.rs 221-237 and 262-268: flush. *)
Definition rd_do_flush (e : env) (s : rd) : rd :=
  if rd_flush s then
    if match ro_flush_interval o with Some _ => e_flush_tick e | None => true end then
      match rd_conn s with
      | RActive => if e_flush_ok e then set_flush s false else s
      | RInactive _ => s
      end
    else s
  else s.

(** driver.rs 271-284: poll the connection task. *)
Definition rd_do_task (e : env) (s : rd) : rd * list out :=
  if rd_task s then
    match e_task e with
    | None => (s, [])
    | Some true => (set_conn s false RActive, [Connected])
    | Some false => (set_conn s false (rd_conn s), [ConnectFailed])
    end
  else (s, []).

(** driver.rs 288-308: the inactive branch. *)
Definition rd_do_inactive (e : env) (b : backoff) (s : rd) : rd * list out * ctl :=
  match bo_poll (e_now e) b with
  | (b', BYield _) =>
    if rd_task s then (set_conn s true (RInactive b'), [], CPending)
    else (set_conn s true (RInactive b'), [StartConnect], CPending)
  | (b', BEnd) => let (s', os) := rd_finish (set_conn s (rd_task s) (RInactive b')) in (s', os, CDone)
  | (b', BPending) => (set_conn s (rd_task s) (RInactive b'), [], CPending)
  | (_, BPanic) => let (s', os) := rd_finish s in (s', os, CDone)      (* a panicking task is dropped *)
  end.

(** driver.rs 369-388: commands. *)
Definition rd_do_command (e : env) (s : rd) : rd * list out * ctl :=
  if e_recv e then
    match rd_cmds s with
    | (c, payload) :: rest => let (s', os) := rd_on_command (e_now e) s rest c payload in (s', os, CContinue)
    | [] =>
      if rd_dropped s then
        if e_close e then let (s', os) := rd_finish s in (s', os, CDone)
        else (s, [], CPending)
      else (s, [], CPending)
    end
  else (s, [], CPending).

(** driver.rs 315-388: the active branch. *)
Definition rd_do_active (e : env) (s : rd) : rd * list out * ctl :=
  match e_next e with
  | NxMsg m => let (s', os) := rd_on_message (e_now e) s m in (s', os, CContinue)        (* 317-321 *)
  | NxErr => (rd_reset s, [], CContinue)                                                 (* 322-331 *)
  | NxEof => let (s', os) := rd_finish s in (s', os, CDone)                              (* 332-336 *)
  | NxPending =>
    match (if e_ready e then rd_egress s else []) with
    | m :: q =>                                                                          (* 341-361 *)
      if e_send e then
        (mkRd (rd_id s) (rd_cmds s) (rd_dropped s) (rd_task s) (rd_conn s) q (rd_pending s) true
              (rd_tx s + rr_size m) (rd_rx s) (rd_rtts s) (rd_done s), [Handed m true], CContinue)
      else
        (rd_reset (mkRd (rd_id s) (rd_cmds s) (rd_dropped s) (rd_task s) (rd_conn s) q (rd_pending s) (rd_flush s)
                        (rd_tx s) (rd_rx s) (rd_rtts s) (rd_done s)), [Handed m false], CContinue)
    | [] =>
      let (s1, o1) := rd_ticks (e_ticks e) (e_now e) s in                                (* 365-367 *)
      match rd_do_command e s1 with (s2, o2, c) => (s2, o1 ++ o2, c) end
    end
  end.

(** One iteration of the loop, driver.rs 260-389. *)
Definition rd_iter (e : env) (s : rd) : rd * list out * ctl :=
  let (s2, o2) := rd_do_task e (rd_do_flush e s) in
  match rd_conn s2 with
  | RInactive b => match rd_do_inactive e b s2 with (s3, o3, c) => (s3, o2 ++ o3, c) end
  | RActive => match rd_do_active e s2 with (s3, o3, c) => (s3, o2 ++ o3, c) end
  end.

(** What can happen to a connected request socket. *)
Inductive req_event :=
| EReq (call : N) (payload : bytes)   (* request(payload) by the application, socket.rs 89-102: the command enters the
                                         channel (the wait for capacity precedes this event) *)
| EDrop                               (* the ReqSocket is dropped *)
| EIter (e : env).                    (* one iteration of the driver's loop *)

Definition rd_step (s : rd) (ev : req_event) : rd * list out :=
  match ev with
  | EReq c payload =>
    if rd_done s || rd_dropped s then (s, [Resolve c OClosed])          (* 98-99: send fails *)
    else (mkRd (rd_id s) (rd_cmds s ++ [(c, payload)]) (rd_dropped s) (rd_task s) (rd_conn s) (rd_egress s) (rd_pending s)
               (rd_flush s) (rd_tx s) (rd_rx s) (rd_rtts s) (rd_done s), [])
  | EDrop => (mkRd (rd_id s) (rd_cmds s) true (rd_task s) (rd_conn s) (rd_egress s) (rd_pending s)
               (rd_flush s) (rd_tx s) (rd_rx s) (rd_rtts s) (rd_done s), [])
  | EIter e => if rd_done s then (s, []) else match rd_iter e s with (s', os, _) => (s', os) end
  end.

(** A whole history: final state and everything that happened. *)
Fixpoint rd_run (s : rd) (evs : list req_event) : rd * list out :=
  match evs with
  | [] => (s, [])
  | ev :: evs' => let (s1, o1) := rd_step s ev in let (s2, o2) := rd_run s1 evs' in (s2, o1 ++ o2)
  end.
End Driver.

(** One call of `poll` (driver.rs 257-390): iterations with the given answers until one of them
    returns; [None]: the answers are used up and the loop still continues. *)
Fixpoint rd_poll (o : ropts) (co : option compressor) (D : decompressors) (es : list env) (s : rd)
  : rd * list out * option ctl :=
  match es with
  | [] => (s, [], None)
  | e :: es' =>
    match rd_iter o co D e s with
    | (s1, o1, CContinue) =>
      match rd_poll o co D es' s1 with (s2, o2, r) => (s2, o1 ++ o2, r) end
    | (s1, o1, c) => (s1, o1, Some c)
    end
  end.
