(** The transports (msg-transport/src: lib.rs, tcp/mod.rs, ipc/mod.rs, quic/mod.rs) seen from the sockets: binding, local addresses and
    accepting connections.

    The operating system is the environment.  What it does when it is asked to create a listening socket is part of the event, as is
    what the listening socket says when it is polled.  Every listening socket has an identity. *)
From Verif Require Import Model.Base Model.Map.

(** A listening socket (TcpListener, quinn::Endpoint): its identity and what `local_addr()` says ([None]: the call fails). *)
Record lsock (A : Type) := mkLs { ls_id : N; ls_addr : option A }.
Arguments mkLs {A}. Arguments ls_id {A}. Arguments ls_addr {A}.

(** ** TCP: tcp/mod.rs 18-22: `listener`. *)
Record tcp (A : Type) := mkTcp { tcp_listener : option (lsock A) }.
Arguments mkTcp {A}. Arguments tcp_listener {A}.

(** tcp/mod.rs 25-27 *)
Definition tcp_new {A} : tcp A := mkTcp None.

(** tcp/mod.rs 45-47 *)
Definition tcp_local {A} (t : tcp A) : option A :=
  match tcp_listener t with Some l => ls_addr l | None => None end.

(** tcp/mod.rs 49-55.  The last argument is what the operating system does: [None] an error, [Some l] a listening socket. *)
Definition tcp_bind {A} (t : tcp A) (a : A) (r : option (lsock A)) : tcp A * bool :=
  match r with
  | None => (t, false)
  | Some l => (mkTcp (Some l), true)
  end.

(** ** IPC: ipc/mod.rs 36-41, with the file system its sockets live in.  A path is any type. *)
Inductive file := FRegular | FDir | FSock (listener : N).
Record ipc (A : Type) := mkIpc { ipc_files : list (A * file); ipc_listener : option N; ipc_path : option A }.
Arguments mkIpc {A}. Arguments ipc_files {A}. Arguments ipc_listener {A}. Arguments ipc_path {A}.

(** What the operating system allows: removing an existing file, creating the socket (identity of the new one, or an error). *)
Record ipc_env := mkIe { ie_remove : bool; ie_create : option N }.

Section Ipc.
Context {A : Type} {E : EqDec A}.

(** ipc/mod.rs 44-46 *)
Definition ipc_new (fs : list (A * file)) : ipc A := mkIpc fs None None.

(** ipc/mod.rs 104-106 *)
Definition ipc_local (t : ipc A) : option A := ipc_path t.

(** ipc/mod.rs 108-123: whatever is at the path (112: `exists`, symbolic links are not modelled) is removed (`remove_file` fails on a
    directory), then the listening socket is created there. *)
Definition ipc_bind (t : ipc A) (a : A) (e : ipc_env) : ipc A * bool :=
  let removed :=
    match mget a (ipc_files t) with
    | None => Some (ipc_files t)
    | Some FDir => None
    | Some _ => if ie_remove e then Some (mdel a (ipc_files t)) else None
    end in
  match removed with
  | None => (t, false)
  | Some fs =>
    match ie_create e with
    | None => (mkIpc fs (ipc_listener t) (ipc_path t), false)
    | Some l => (mkIpc (mset a (FSock l) fs) (Some l) (Some a), true)
    end
  end.

(** UnixStream::connect(path) (ipc/mod.rs 55-58, 125-127): the listening socket it reaches. *)
Definition ipc_reaches (fs : list (A * file)) (a : A) : option N :=
  match mget a fs with Some (FSock l) => Some l | _ => None end.
End Ipc.

(** ** QUIC: quic/mod.rs 50-56.  `incoming` is the channel fed by the task that accepts the connections of one endpoint (193-205): it is
    represented by that endpoint. *)
Record quic (A : Type) := mkQ { q_endpoint : option (lsock A); q_incoming : option (lsock A) }.
Arguments mkQ {A}. Arguments q_endpoint {A}. Arguments q_incoming {A}.

(** quic/mod.rs 60-62 *)
Definition quic_new {A} : quic A := mkQ None None.

(** quic/mod.rs 94-96 *)
Definition quic_local {A} (t : quic A) : option A :=
  match q_endpoint t with Some l => ls_addr l | None => None end.

(** quic/mod.rs 99-105 *)
Definition quic_bind {A} (t : quic A) (a : A) (r : option (lsock A)) : quic A * bool :=
  match r with
  | None => (t, false)
  | Some l => (mkQ (Some l) (q_incoming t), true)
  end.

(** quic/mod.rs 109-121: the endpoint used for an outbound connection; [r] is what creating one gives, if one has to be created. *)
Definition quic_connect {A} (t : quic A) (r : option (lsock A)) : quic A * option (lsock A) :=
  match q_endpoint t, r with
  | Some l, _ => (t, Some l)
  | None, Some l => (mkQ (Some l) (q_incoming t), Some l)
  | None, None => (t, None)
  end.

(** ** Accepting. *)

(** A future of type Transport::Accept: it answers Pending [f_wait] times and then gives its output. *)
Record afut (R : Type) := mkFut { f_wait : nat; f_out : R }.
Arguments mkFut {R}. Arguments f_wait {R}. Arguments f_out {R}.

(** Output of an accept future: a connection (its identity) or an error. *)
Inductive inbound := InConn (c : N) | InErr.

(** What a kernel listening socket says when polled (TcpListener / UnixListener::poll_accept): nothing yet, a connection together with
    whether `set_nodelay` works on it, or an error. *)
Inductive lpoll := LPending | LConn (c : N) (nodelay_ok : bool) | LErr.

(** Transport::poll_accept: which listening socket was polled ([None]: none is bound), and the result. *)
Definition tcp_poll_accept {A} (t : tcp A) (poll : lsock A -> lpoll) : option (afut inbound) :=   (* tcp/mod.rs 66-86 *)
  match tcp_listener t with
  | None => Some (mkFut 0 InErr)                                  (* 69-71: async_error *)
  | Some l =>
    match poll l with
    | LPending => None
    | LConn c true => Some (mkFut 0 (InConn c))
    | LConn _ false => Some (mkFut 0 InErr)
    | LErr => Some (mkFut 0 InErr)
    end
  end.

Definition ipc_poll_accept {A} (t : ipc A) (poll : N -> lpoll) : option (afut inbound) :=         (* ipc/mod.rs 129-149 *)
  match ipc_listener t with
  | None => Some (mkFut 0 InErr)
  | Some l =>
    match poll l with
    | LPending => None
    | LConn c _ => Some (mkFut 0 (InConn c))
    | LErr => Some (mkFut 0 InErr)
    end
  end.

(** What the channel of an endpoint's accepting task yields: nothing yet, a connection that is still being established (its handshake and
    its first stream need [wait] further polls, and may fail), or `Err(ClosedEndpoint)` (199-200). *)
Inductive qpoll := QPending | QConnecting (wait : nat) (r : inbound) | QClosed.

(** quic/mod.rs 145-211.  Second component: the transport afterwards (the accepting task is started for the current endpoint when there
    is none, 182-208; the loop then polls the new channel, 208). *)
Definition quic_poll_accept {A} (t : quic A) (poll : lsock A -> qpoll) : quic A * option (afut inbound) :=
  let from l := match poll l with
                | QPending => None
                | QConnecting w r => Some (mkFut w r)
                | QClosed => Some (mkFut 0 InErr)
                end in
  match q_incoming t with
  | Some l => (t, from l)
  | None =>
    match q_endpoint t with
    | None => (t, Some (mkFut 0 InErr))                           (* 187-189 *)
    | Some l => (mkQ (q_endpoint t) (Some l), from l)
    end
  end.

(** Acceptor::poll, lib.rs 98-107: one poll of the future returned by TransportExt::accept, given what poll_accept says.  [ASleep w]:
    Pending; [w] tells whether somebody will wake the task: the listening socket does if it was asked and had nothing; an accept future
    that was polled and is then dropped (it is a local variable, lib.rs 100) does not. *)
Inductive wake := WakeByListener | WakeByNobody.
Inductive apoll := AReady (r : inbound) | ASleep (w : wake).

Definition acceptor_poll (r : option (afut inbound)) : apoll :=
  match r with
  | None => ASleep WakeByListener
  | Some f => if Nat.eqb (f_wait f) 0 then AReady (f_out f) else ASleep WakeByNobody
  end.

(** A program that calls accept().await over and over: the results it gets, given what poll_accept says poll after poll. *)
Fixpoint accept_loop (l : list (option (afut inbound))) : list inbound :=
  match l with
  | [] => []
  | r :: l' => match acceptor_poll r with AReady x => x :: accept_loop l' | ASleep _ => accept_loop l' end
  end.

(** ** Binding a socket: the loop of try_bind, rep/socket.rs 109-121 = pub/socket.rs 112-124. *)
Section Bind.
Context {A T O : Type} (bind : T -> A -> O -> T * bool).

(** Every address comes with what the operating system does if it is asked for it.  Result: the transport, and the addresses that were asked
    for. *)
Fixpoint bind_loop (t : T) (l : list (A * O)) : T * list A :=
  match l with
  | [] => (t, [])
  | (a, o) :: l' =>
    let (t', ok) := bind t a o in
    if ok then (t', [a])
    else let (t'', tried) := bind_loop t' l' in (t'', a :: tried)
  end.
End Bind.
