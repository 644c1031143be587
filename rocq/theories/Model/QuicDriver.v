(** The driver of a reply socket or publisher over QUIC transports: its accept futures (conn_tasks, rep/driver.rs 136-155, pub/driver.rs
    91-109) are those of quic/mod.rs 159-170, one connection (Model/QuicStream.v) per future.  Written once for both drivers. *)
From Verif Require Import Model.Base Model.Map Model.RepDriver Model.PubDriver Model.QuicStream.

Section Driver.
Variables (St Ev Out : Type) (act : St -> Ev -> St * list Out) (conns : St -> list N) (next_cid : St -> N)
          (accept : Ev)                      (* the listener yields an accept future *)
          (done : nat -> bool -> Ev)         (* the [k]th accept future completed, with a connection or with an error *)
          (other : Ev -> bool).              (* the event is of another kind *)

(** What can happen: the listener yields the accept future of a new connection; its client or the network does something; the driver polls its [k]th
    accept future; anything else. *)
Inductive qd_event := DArrive | DLink (cid : N) (e : ql_event) | DPoll (k : nat) | DOther (ev : Ev).

Definition qd_step (y : St * list (N * qlink)) (e : qd_event) : (St * list (N * qlink)) * list Out :=
  let (s, ls) := y in
  match e with
  | DArrive =>
    let cid := next_cid s in
    let (s', o) := act s accept in
    ((s', if cid =? next_cid s' then ls (* refused *) else mset cid ql_init ls), o)
  | DLink cid le =>
    match le, mget cid ls with
    | LServerPoll, _ | _, None => (y, [])
    | _, Some l => ((s, mset cid (fst (ql_step l le)) ls), [])
    end
  | DPoll k =>
    match nth_error (conns s) k with
    | None => (y, [])
    | Some cid =>
      match mget cid ls with
      | None => (y, [])
      | Some l =>
        let (l', lo) := ql_server_poll l in
        let ls' := mset cid l' ls in
        match lo with
        | LAccepted :: _ => let (s', o) := act s (done k true) in ((s', ls'), o)
        | LAcceptErr :: _ => let (s', o) := act s (done k false) in ((s', ls'), o)
        | _ => ((s, ls'), [])
        end
      end
    end
  | DOther ev => if other ev then let (s', o) := act s ev in ((s', ls), o) else (y, [])
  end.
Fixpoint qd_run (y : St * list (N * qlink)) (evs : list qd_event) : (St * list (N * qlink)) * list Out :=
  match evs with
  | [] => (y, [])
  | e :: evs' => let (y1, o1) := qd_step y e in let (y2, o2) := qd_run y1 evs' in (y2, o1 ++ o2)
  end.
End Driver.
Arguments DArrive {Ev}. Arguments DLink {Ev}. Arguments DPoll {Ev}. Arguments DOther {Ev}.

(** A reply socket listening on QUIC; [addr]: the clients' addresses (rep/driver.rs 136-155; a QUIC stream always knows its peer's address:
    stream.rs 50-52). *)
Definition rep_quic (max : option N) (min : N) (auth : option (bytes -> bool)) (co : option Compression.compressor) (D : Compression.decompressors) (addr : nat -> N) :=
  qd_run rp rp_event rout (rp_act max min auth co D) rp_conns rp_next_cid VAccept
         (fun k ok => VConn k (if ok then Some (Some (addr k)) else None))
         (fun ev => match ev with VAccept | VConn _ _ => false | _ => true end).
(** A publisher listening on QUIC (pub/driver.rs 91-109). *)
Definition pub_quic (max : option N) (buf : N) (min : N) (auth : option (bytes -> bool)) (co : option Compression.compressor) :=
  qd_run pb pb_event qout (pb_act max buf min auth co) pb_conns pb_next_cid WAccept
         (fun k ok => WConn k (if ok then Some true else None))
         (fun ev => match ev with WAccept | WConn _ _ => false | _ => true end).
