(** One QUIC connection from connect() to the accepted stream: msg-transport/src/quic/mod.rs 125-142 (the client's future) and 159-170 (the
    server's future), stream.rs.

    quinn 0.10: a connection attempt gives the connection once the handshake is over; `open_bi` gives a stream at once (a client opens one
    stream per connection, the limit for the peer is never 0: simplification) and sends nothing; the server learns of a stream from its
    first frame, which is sent when the client writes at least one byte or finishes the stream (shutdown, or dropping the sending half);
    `accept_bi` gives a stream that is there even if the connection has been lost since, else the error of a lost connection, else waits.
    (Simplification: everything read and written afterwards is Model/Net.v.) *)
From Verif Require Import Model.Base.

(** The network's part: the handshake is under way, done, or has failed. *)
Inductive qhand := HPending | HDone | HFailed.
(** The future of connect(), 125-142. *)
Inductive qclient := QcConnecting | QcStream | QcFailed.
(** The accept future, 159-170: in `connecting.await`; in `accept_bi().await`; it has given a stream; it has failed. *)
Inductive qserver := QsConnecting | QsWaiting | QsGiven | QsFailed.

Record qlink := mkQl {
  ql_hand : qhand;
  ql_client : qclient;
  ql_sent : bool;         (* a frame of the stream is on its way *)
  ql_arrived : bool;      (* it has reached the server *)
  ql_lost : bool;         (* the connection is lost *)
  ql_server : qserver }.
Definition ql_init : qlink := mkQl HPending QcConnecting false false false QsConnecting.

(** What can happen: the handshake ends, a frame of the stream is delivered, the connection is lost; the client's future is polled, the client
    writes [n] bytes, it finishes its stream; the server's future is polled. *)
Inductive ql_event := LHandshake (ok : bool) | LDeliver | LLost | LClientPoll | LWrite (n : N) | LFinish | LServerPoll.

(** What is seen: connect() returned a stream or an error; [n] bytes were accepted for writing; the stream was finished; the accept future
    gave a stream or an error. *)
Inductive ql_out := LConnected | LConnectErr | LWrote (n : N) | LFinished | LAccepted | LAcceptErr.

Definition ql_set_client (l : qlink) (c : qclient) := mkQl (ql_hand l) c (ql_sent l) (ql_arrived l) (ql_lost l) (ql_server l).
Definition ql_set_server (l : qlink) (s : qserver) := mkQl (ql_hand l) (ql_client l) (ql_sent l) (ql_arrived l) (ql_lost l) s.
Definition ql_set_sent (l : qlink) := mkQl (ql_hand l) (ql_client l) true (ql_arrived l) (ql_lost l) (ql_server l).

(** mod.rs 163-169: accept_bi. *)
Definition ql_accept_bi (l : qlink) : qlink * list ql_out :=
  if ql_arrived l then (ql_set_server l QsGiven, [LAccepted])
  else if ql_lost l then (ql_set_server l QsFailed, [LAcceptErr])
  else (ql_set_server l QsWaiting, []).
(** The accept future, mod.rs 159-170. *)
Definition ql_server_poll (l : qlink) : qlink * list ql_out :=
  match ql_server l with
  | QsConnecting =>
    match ql_hand l with
    | HPending => (l, [])
    | HFailed => (ql_set_server l QsFailed, [LAcceptErr])           (* 160 *)
    | HDone => ql_accept_bi l
    end
  | QsWaiting => ql_accept_bi l
  | QsGiven | QsFailed => (l, [])                                   (* not polled again *)
  end.
(** The future of connect(), mod.rs 125-142. *)
Definition ql_client_poll (l : qlink) : qlink * list ql_out :=
  match ql_client l with
  | QcConnecting =>
    match ql_hand l with
    | HPending => (l, [])
    | HFailed => (ql_set_client l QcFailed, [LConnectErr])          (* 130 *)
    | HDone => if ql_lost l then (ql_set_client l QcFailed, [LConnectErr]) else (ql_set_client l QcStream, [LConnected])   (* 136-140 *)
    end
  | _ => (l, [])
  end.
Definition ql_step (l : qlink) (e : ql_event) : qlink * list ql_out :=
  match e with
  | LHandshake ok => (match ql_hand l with HPending => mkQl (if ok then HDone else HFailed) (ql_client l) (ql_sent l) (ql_arrived l) (ql_lost l) (ql_server l) | _ => l end, [])
  | LDeliver => (mkQl (ql_hand l) (ql_client l) (ql_sent l) (ql_arrived l || (ql_sent l && negb (ql_lost l))) (ql_lost l) (ql_server l), [])
  | LLost => (mkQl (ql_hand l) (ql_client l) (ql_sent l) (ql_arrived l) true (ql_server l), [])
  | LClientPoll => ql_client_poll l
  | LWrite n =>                                                     (* stream.rs 28-34 *)
    match ql_client l with
    | QcStream => if ql_lost l then (l, []) else if n =? 0 then (l, [LWrote 0]) else (ql_set_sent l, [LWrote n])
    | _ => (l, [])
    end
  | LFinish =>                                                      (* stream.rs 43-48 *)
    match ql_client l with
    | QcStream => if ql_lost l then (l, []) else (ql_set_sent l, [LFinished])
    | _ => (l, [])
    end
  | LServerPoll => ql_server_poll l
  end.
Fixpoint ql_run (l : qlink) (evs : list ql_event) : qlink * list ql_out :=
  match evs with
  | [] => (l, [])
  | e :: evs' => let (l1, o1) := ql_step l e in let (l2, o2) := ql_run l1 evs' in (l2, o1 ++ o2)
  end.
