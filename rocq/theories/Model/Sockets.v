(** The life of the user-facing socket objects: construction, bind / connect, use before and after
    (req/socket.rs, rep/socket.rs, pub/socket.rs, sub/socket.rs).  What the drivers do is modelled elsewhere; here a running driver is a flag. *)
From Verif Require Import Model.Base Model.Map Model.Transport.

(** What a call gives: a value, one of the socket's error values, or a panic in the caller. *)
Inductive serr := SocketClosed | NoValidEndpoints | LookupFailed.
Inductive called (X : Type) := Returns (x : X) | Fails (e : serr) | Panics.
Arguments Returns {X}. Arguments Fails {X}. Arguments Panics {X}.

(** Limits checked by tokio: mpsc::channel and broadcast::channel panic for capacity 0 and for capacities the semaphore / slot counter cannot
    hold (64-bit targets). *)
Definition mpsc_capacity_ok (n : N) : bool := (0 <? n) && (n <=? 2 ^ 61 - 1).
Definition broadcast_capacity_ok (n : N) : bool := (0 <? n) && (n <=? 2 ^ 63 - 1).
(** tokio::time::interval panics for period 0. *)
Definition interval_ok (period : N) : bool := 0 <? period.

Section Server.
Context {A T O : Type} (bind : T -> A -> O -> T * bool) (local : T -> option A).

(** rep/socket.rs 28-44 and pub/socket.rs 20-39: what matters for the life of the socket. *)
Record server := mkSrv {
  sv_transport : option T;      (* transport *)
  sv_driver : bool;             (* from_driver / to_sessions_bcast is Some *)
  sv_local : option A           (* local_addr *)
}.

(** rep/socket.rs 74-89, pub/socket.rs 74-89 *)
Definition sv_new (t : T) : server := mkSrv (Some t) false None.

(** RepSocket::try_bind, rep/socket.rs 104-143; PubSocket::try_bind, pub/socket.rs 106-145 with [chan_ok] telling whether
    broadcast::channel(session_buffer_size) (107-108) works; for RepSocket it is [true] (its channel has capacity 1024).  Third component: the
    addresses the transport was asked to bind. *)
Definition sv_try_bind (chan_ok : bool) (s : server) (l : list (A * O)) : server * called unit * list A :=
  if negb chan_ok then (s, Panics, []) else
  match sv_transport s with
  | None => (s, Panics, [])                                           (* "Transport has been moved already" *)
  | Some t =>
    let (t', tried) := bind_loop bind t l in
    match local t' with
    | None => (mkSrv None (sv_driver s) (sv_local s), Fails NoValidEndpoints, tried)
    | Some a => (mkSrv None true (Some a), Returns tt, tried)
    end
  end.

(** bind(addr) for host names, rep/socket.rs 51-54, pub/socket.rs 49-52: [None] means that the name lookup failed. *)
Definition sv_bind (chan_ok : bool) (s : server) (l : option (list (A * O))) : server * called unit * list A :=
  match l with
  | None => (s, Fails LookupFailed, [])
  | Some l => sv_try_bind chan_ok s l
  end.

(** Using the socket: RepSocket::poll_next, rep/socket.rs 164-166 (`expect("Inactive socket")`). *)
Definition rep_poll (s : server) : called unit := if sv_driver s then Returns tt else Panics.
(** PubSocket::publish / try_publish, pub/socket.rs 163-165, 186-188 (`ok_or(SocketClosed)`; that there is no session is not an error). *)
Definition pub_publish (s : server) : called unit := if sv_driver s then Returns tt else Fails SocketClosed.

Inductive server_op := SBind (l : option (list (A * O))) | SUse.
Definition sv_op (chan_ok is_rep : bool) (s : server) (o : server_op) : server * called unit :=
  match o with
  | SBind l => fst (sv_bind chan_ok s l)
  | SUse => (s, if is_rep then rep_poll s else pub_publish s)
  end.
Fixpoint sv_run (chan_ok is_rep : bool) (s : server) (l : list server_op) : server * list (called unit) :=
  match l with
  | [] => (s, [])
  | o :: l' => let (s1, r) := sv_op chan_ok is_rep s o in
               let (s2, rs) := sv_run chan_ok is_rep s1 l' in (s2, r :: rs)
  end.
End Server.
Arguments server : clear implicits. Arguments server_op : clear implicits.

(** A new publisher session (pub/driver.rs 60-76, 185-201) panics in the driver iff the flush interval is 0. *)
Definition pub_session_ok (flush_interval : option N) : bool :=
  match flush_interval with None => true | Some p => interval_ok p end.

(** req/socket.rs 19-34. *)
Record client := mkCl { cl_transport : bool; cl_driver : bool }.
Definition cl_new : client := mkCl true false.

(** ReqSocket::try_connect, req/socket.rs 106-157: options timeout and flush_interval in nanoseconds.  The transport is taken (110) before
    the intervals are created (119, 121). *)
Definition req_try_connect (timeout : N) (flush_interval : option N) (s : client) : client * called unit :=
  if cl_transport s then
    if interval_ok (timeout / 10) && (match flush_interval with None => true | Some p => interval_ok p end)
    then (mkCl false true, Returns tt)
    else (mkCl false (cl_driver s), Panics)
  else (s, Panics).

(** connect(addr) for host names, req/socket.rs 41-46: the number of addresses the lookup gives, or its failure. *)
Definition req_connect (timeout : N) (flush_interval : option N) (lookup : option N) (s : client) : client * called unit :=
  match lookup with
  | None => (s, Fails LookupFailed)
  | Some 0 => (s, Fails NoValidEndpoints)
  | Some _ => req_try_connect timeout flush_interval s
  end.

(** ReqSocket::request up to handing the request to the driver, req/socket.rs 89-101. *)
Definition req_request (s : client) : called unit := if cl_driver s then Returns tt else Fails SocketClosed.

Inductive client_op := KConnect (lookup : option N) | KRequest.
Definition cl_op (timeout : N) (flush : option N) (s : client) (o : client_op) : client * called unit :=
  match o with KConnect l => req_connect timeout flush l s | KRequest => (s, req_request s) end.
Fixpoint cl_run (timeout : N) (flush : option N) (s : client) (l : list client_op) : client * list (called unit) :=
  match l with
  | [] => (s, [])
  | o :: l' => let (s1, r) := cl_op timeout flush s o in
               let (s2, rs) := cl_run timeout flush s1 l' in (s2, r :: rs)
  end.

(** SubSocket::with_options, sub/socket.rs 127-162: mpsc::channel(ingress_buffer_size) (129). *)
Definition sub_new_ok (ingress_buffer_size : N) : called unit :=
  if mpsc_capacity_ok ingress_buffer_size then Returns tt else Panics.

(** ** msg-common/src/channel.rs: a pair of bounded queues. *)
(** One tokio mpsc channel: messages in order, capacity, whether the sender and the receiver still exist. *)
Record mpsc (X : Type) := mkMp { mp_q : list X; mp_cap : N; mp_tx : bool; mp_rx : bool }.
Arguments mkMp {X}. Arguments mp_q {X}. Arguments mp_cap {X}. Arguments mp_tx {X}. Arguments mp_rx {X}.

Section Channel.
Context {S R : Type}.

(** The two ends: the first sends on [ch_a] and receives on [ch_b]; the second the other way round (channel.rs 31-44). *)
Record chans := mkCh { ch_a : mpsc S; ch_b : mpsc R }.

Definition channel (tx_buffer rx_buffer : N) : option chans :=
  if mpsc_capacity_ok tx_buffer && mpsc_capacity_ok rx_buffer
  then Some (mkCh (mkMp [] tx_buffer true true) (mkMp [] rx_buffer true true)) else None.
End Channel.
Arguments chans : clear implicits.

(** Results of sending: sent, full (`try_send`: Err(Full); `send`: waits), closed. *)
Inductive sent := Sent | Full | Closed.
(** channel.rs 55-71 send / try_send (a call of `send` that has to wait is a [Full] followed by another attempt). *)
Definition mp_send {X} (m : mpsc X) (x : X) : mpsc X * sent :=
  if negb (mp_rx m) then (m, Closed)
  else if mp_cap m <=? blen (mp_q m) then (m, Full)
  else (mkMp (mp_q m ++ [x]) (mp_cap m) (mp_tx m) (mp_rx m), Sent).
(** Results of receiving: a message, nothing yet, or the end (`recv` gives None, `try_recv` Err(Disconnected)). *)
Inductive recvd (X : Type) := Got (x : X) | Nothing | End.
Arguments Got {X}. Arguments Nothing {X}. Arguments End {X}.
(** channel.rs 85-135 recv / try_recv / poll_recv. *)
Definition mp_recv {X} (m : mpsc X) : mpsc X * recvd X :=
  match mp_q m with
  | x :: q => (mkMp q (mp_cap m) (mp_tx m) (mp_rx m), Got x)
  | [] => (m, if mp_tx m then Nothing else End)
  end.
(** Dropping the receiver discards what is queued. *)
Definition mp_drop_tx {X} (m : mpsc X) : mpsc X := mkMp (mp_q m) (mp_cap m) false (mp_rx m).
Definition mp_drop_rx {X} (m : mpsc X) : mpsc X := mkMp [] (mp_cap m) (mp_tx m) false.

(** Uses of the two ends.  An end that was dropped is not used any more. *)
Inductive ch_op (S R : Type) :=
| CSend1 (x : S) | CRecv1 | CDrop1       (* the first end *)
| CSend2 (x : R) | CRecv2 | CDrop2.      (* the second end *)
Arguments CSend1 {S R}. Arguments CRecv1 {S R}. Arguments CDrop1 {S R}. Arguments CSend2 {S R}. Arguments CRecv2 {S R}. Arguments CDrop2 {S R}.
Inductive ch_res (S R : Type) := RSent1 (x : S) (r : sent) | RRecv1 (r : recvd R) | RSent2 (x : R) (r : sent) | RRecv2 (r : recvd S) | RNone.
Arguments RSent1 {S R}. Arguments RRecv1 {S R}. Arguments RSent2 {S R}. Arguments RRecv2 {S R}. Arguments RNone {S R}.
Definition ch_act {S R} (c : chans S R) (o : ch_op S R) : chans S R * ch_res S R :=
  let alive1 := mp_tx (ch_a c) in let alive2 := mp_tx (ch_b c) in
  match o with
  | CSend1 x => if alive1 then let (m, r) := mp_send (ch_a c) x in (mkCh m (ch_b c), RSent1 x r) else (c, RNone)
  | CRecv1 => if alive1 then let (m, r) := mp_recv (ch_b c) in (mkCh (ch_a c) m, RRecv1 r) else (c, RNone)
  | CDrop1 => (mkCh (mp_drop_tx (ch_a c)) (mp_drop_rx (ch_b c)), RNone)
  | CSend2 x => if alive2 then let (m, r) := mp_send (ch_b c) x in (mkCh (ch_a c) m, RSent2 x r) else (c, RNone)
  | CRecv2 => if alive2 then let (m, r) := mp_recv (ch_a c) in (mkCh m (ch_b c), RRecv2 r) else (c, RNone)
  | CDrop2 => (mkCh (mp_drop_rx (ch_a c)) (mp_drop_tx (ch_b c)), RNone)
  end.
Fixpoint ch_run {S R} (c : chans S R) (l : list (ch_op S R)) : chans S R * list (ch_res S R) :=
  match l with
  | [] => (c, [])
  | o :: l' => let (c1, r) := ch_act c o in let (c2, rs) := ch_run c1 l' in (c2, r :: rs)
  end.
