(** tokio-util 0.7.10 `Framed` (codec/framed_impl.rs, `impl Sink for FramedImpl`): the write half, generic in
    the message type and its encoder.  External code, modelled from its source; every connection of msg-socket
    is written through it: req/driver.rs 264, 341, 347, 378; rep/driver.rs 262, 269, 272; pub/session.rs 148,
    153, 158, 168; sub/stream.rs 30, 34, 66 (and the handshakes, which use SinkExt::send on it). *)
From Verif Require Import Model.Base.

(** Answers of the transport to successive `poll_write`s (and to the `poll_flush`/`poll_shutdown` of the
    transport itself, where [WrOk _] means Ready(Ok)). *)
Inductive wr :=
| WrOk (n : nat)      (* Ready(Ok(n)): [n] bytes were taken (never more than were offered); 0 = nothing will
                         ever be taken any more *)
| WrPending           (* Pending *)
| WrErr.              (* Ready(Err(_)) *)

(** The WriteFrame state: the encoded bytes not yet taken by the transport.  [fw_out] is a ghost: the bytes the
    transport has taken. *)
Record fw := mkFw { fw_buf : bytes; fw_out : bytes }.
(** Framed::new. *)
Definition fw_new : fw := mkFw [] [].

Inductive wres := WReady | WPending | WFail.      (* Ready(Ok(())) / Pending / Ready(Err(_)) *)

(** poll_flush: write until the buffer is empty, then flush the transport.  Exhausted answers: not ready.
    Also returns the answers that were not used. *)
Fixpoint fw_flush (w : fw) (ans : list wr) : fw * wres * list wr :=
  match fw_buf w with
  | [] =>
    match ans with
    | WrOk _ :: ans' => (w, WReady, ans')
    | WrErr :: ans' => (w, WFail, ans')
    | WrPending :: ans' => (w, WPending, ans')
    | [] => (w, WPending, [])
    end
  | _ :: _ =>
    match ans with
    | [] => (w, WPending, [])
    | WrPending :: ans' => (w, WPending, ans')
    | WrErr :: ans' => (w, WFail, ans')
    | WrOk O :: ans' => (w, WFail, ans')            (* io::ErrorKind::WriteZero *)
    | WrOk n :: ans' => fw_flush (mkFw (skipn n (fw_buf w)) (fw_out w ++ firstn n (fw_buf w))) ans'
    end
  end.

(** poll_ready: at or above the boundary, flush first. *)
Definition fw_ready (boundary : N) (w : fw) (ans : list wr) : fw * wres * list wr :=
  if boundary <=? blen (fw_buf w) then fw_flush w ans else (w, WReady, ans).

(** start_send: the encoder appends to the buffer.  The encoders of msg-wire always return Ok (reqrep.rs 174-184,
    pubsub.rs 261-275, auth.rs 120-142), so this never fails. *)
Definition fw_send {M} (encode : M -> bytes) (m : M) (w : fw) : fw := mkFw (fw_buf w ++ encode m) (fw_out w).

(** poll_close: flush, then shut the transport down. *)
Definition fw_close (w : fw) (ans : list wr) : fw * wres * list wr :=
  match fw_flush w ans with
  | (w', WReady, WrOk _ :: ans') => (w', WReady, ans')
  | (w', WReady, WrErr :: ans') => (w', WFail, ans')
  | (w', WReady, WrPending :: ans') => (w', WPending, ans')
  | (w', WReady, []) => (w', WPending, [])
  | r => r
  end.

(** Uses of the write half, in the order its owner makes them. *)
Inductive wop (M : Type) :=
| WoReady (ans : list wr)
| WoSend (m : M)
| WoFlush (ans : list wr)
| WoClose (ans : list wr).
Arguments WoReady {M}. Arguments WoSend {M}. Arguments WoFlush {M}. Arguments WoClose {M}.

Definition fw_step {M} (encode : M -> bytes) (boundary : N) (w : fw) (op : wop M) : fw * wres :=
  match op with
  | WoReady ans => fst (fw_ready boundary w ans)
  | WoSend m => (fw_send encode m w, WReady)
  | WoFlush ans => fst (fw_flush w ans)
  | WoClose ans => fst (fw_close w ans)
  end.
Fixpoint fw_run {M} (encode : M -> bytes) (boundary : N) (w : fw) (ops : list (wop M)) : fw * list wres :=
  match ops with
  | [] => (w, [])
  | op :: ops' =>
    let (w1, r) := fw_step encode boundary w op in
    let (w2, rs) := fw_run encode boundary w1 ops' in (w2, r :: rs)
  end.
