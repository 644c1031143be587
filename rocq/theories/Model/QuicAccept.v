(** Inbound QUIC connections: msg-transport/src/quic/mod.rs 145-211, `Quic::poll_accept` and the task it starts, for one bound
    endpoint.  (Binding again is in Model/Transport.v.)

    The endpoint (quinn 0.10) is shared by handles; it keeps the connections nobody has accepted yet in arrival order.
    `Endpoint::accept` gives the oldest one, waits if there is none, and gives `None` once the endpoint's driver has failed.  The address
    is given up when the last handle is dropped.  (Simplification: quinn keeps the UDP socket open while connections are open; here
    "released" means that no handle is left.) *)
From Verif Require Import Model.Base.

(** What goes through the channel: Ok(connecting) or Err(Error::ClosedEndpoint), 196-197. *)
Inductive qitem := QiConn (c : N) | QiClosed.

(** The accepting task, 193-205: not started; in `endpoint.accept().await`; in `tx.send(..).await`; ended. *)
Inductive qtask := QtNone | QtAccepting | QtSending (i : qitem) | QtEnded.

Record qa := mkQa {
  qa_backlog : list N;     (* connections in the endpoint, oldest first *)
  qa_failed : bool;        (* the endpoint's driver has failed *)
  qa_task : qtask;
  qa_chan : list qitem;    (* the channel, `incoming` is its receiver *)
  qa_alive : bool }.       (* the transport exists: it holds a handle of the endpoint and the receiver *)

(** After a successful bind(), 99-105. *)
Definition qa_bound : qa := mkQa [] false QtNone [] true.

(** mpsc::channel(32), 190 *)
Definition QUIC_CHAN : N := 32.

(** Observable effects, in order. *)
Inductive aout :=
| AArrived (c : N)       (* a connection reached the endpoint *)
| AUnreachable (c : N)   (* a client tried to connect, but nobody listens *)
| AGave (c : N)          (* poll_accept returned the accept future of this connection *)
| AGaveErr               (* poll_accept returned a future that fails with ClosedEndpoint *)
| APending               (* poll_accept returned Pending *)
| APanic                 (* unreachable!("Incoming channel closed"), 174-176 *)
| ALost (c : N)          (* the connection was dropped without having been given to anybody *)
| ADropped               (* the transport was dropped *)
| AReleased.             (* the last handle of the endpoint is gone *)

Inductive aevent :=
| EArrive (c : N)        (* a client connects *)
| EFail                  (* the endpoint's driver fails *)
| EStep                  (* the accepting task runs until its next await *)
| EPoll                  (* poll_accept *)
| EDrop.                 (* the transport is dropped *)

Definition item_lost (i : qitem) : list aout := match i with QiConn c => [ALost c] | QiClosed => [] end.

(** Somebody holds a handle of the endpoint. *)
Definition qa_held (s : qa) : bool :=
  qa_alive s || match qa_task s with QtAccepting | QtSending _ => true | _ => false end.

Definition qa_act (s : qa) (ev : aevent) : qa * list aout :=
  match ev with
  | EArrive c =>
    if qa_held s && negb (qa_failed s) then (mkQa (qa_backlog s ++ [c]) false (qa_task s) (qa_chan s) (qa_alive s), [AArrived c])
    else (s, [AUnreachable c])
  | EFail => (mkQa (qa_backlog s) true (qa_task s) (qa_chan s) (qa_alive s), [])
  | EStep =>
    match qa_task s with
    | QtAccepting =>                                                                                    (* 196-197 *)
      if qa_failed s then (mkQa (qa_backlog s) (qa_failed s) (QtSending QiClosed) (qa_chan s) (qa_alive s), [])
      else match qa_backlog s with
           | c :: r => (mkQa r (qa_failed s) (QtSending (QiConn c)) (qa_chan s) (qa_alive s), [])
           | [] => (s, [])
           end
    | QtSending i =>                                                                                    (* 199-202 *)
      if qa_alive s then
        if blen (qa_chan s) <? QUIC_CHAN then (mkQa (qa_backlog s) (qa_failed s) QtAccepting (qa_chan s ++ [i]) (qa_alive s), [])
        else (s, [])
      else (mkQa [] (qa_failed s) QtEnded (qa_chan s) (qa_alive s), item_lost i ++ map ALost (qa_backlog s) ++ [AReleased])
    | QtNone | QtEnded => (s, [])
    end
  | EPoll =>
    if qa_alive s then
      let t := match qa_task s with QtNone => QtAccepting | t => t end in                               (* 182-208 *)
      match qa_chan s with                                                                              (* 151 *)
      | QiConn c :: r => (mkQa (qa_backlog s) (qa_failed s) t r (qa_alive s), [AGave c])                (* 152-170 *)
      | QiClosed :: r => (mkQa (qa_backlog s) (qa_failed s) t r (qa_alive s), [AGaveErr])               (* 171-173 *)
      | [] => (mkQa (qa_backlog s) (qa_failed s) t [] (qa_alive s), [match t with QtEnded => APanic | _ => APending end])
      end
    else (s, [])
  | EDrop =>
    if qa_alive s then
      match qa_task s with
      | QtNone => (mkQa [] (qa_failed s) QtNone [] false, ADropped :: flat_map item_lost (qa_chan s) ++ map ALost (qa_backlog s) ++ [AReleased])
      | t => (mkQa (qa_backlog s) (qa_failed s) t [] false, ADropped :: flat_map item_lost (qa_chan s))
      end
    else (s, [])
  end.

Fixpoint qa_run (s : qa) (evs : list aevent) : qa * list aout :=
  match evs with
  | [] => (s, [])
  | ev :: evs' => let (s1, o1) := qa_act s ev in let (s2, o2) := qa_run s1 evs' in (s2, o1 ++ o2)
  end.
