(** A connection between two sockets: two byte streams (one per direction) and, at each end, the tokio-util `Framed` that
    reads the incoming one.  Used by Model/ReqRepNet.v and Model/PubSubNet.v to join the models of the two sides.

    This is the part of the world between two `Io`s (msg-transport/src/lib.rs 28-41, trait Transport: an `Io` is an
    AsyncRead + AsyncWrite): a reliable, ordered byte stream, as TCP, QUIC streams and Unix sockets provide it
    (tcp/mod.rs, quic/stream.rs, ipc/mod.rs).  What is written is read in the same order, without gaps, in pieces of any
    size, any time later; reads may also be "not ready", fail, or report the end of the stream at any moment (so a
    connection may break at any point and everything not yet read is then lost). *)
From Verif Require Import Model.Base Model.Framed.

(** The data among the answers of a transport to successive reads. *)
Definition io_data (input : list io) : bytes := concat (map (fun i => match i with IoData c => c | _ => [] end) input).

Fixpoint prefixb (a b : bytes) : bool :=
  match a, b with
  | [], _ => true
  | x :: a', y :: b' => Byte.eqb x y && prefixb a' b'
  | _, [] => false
  end.

(** One direction of a connection: what the reader has read, and what was written but not read yet.  (Bytes in the writer's
    `Framed` buffer count as written: when they are flushed is part of "any time later".) *)
Record pipe := mkPipe { pp_done : bytes; pp_todo : bytes }.
Definition pipe_new : pipe := mkPipe [] [].
Definition pipe_write (b : bytes) (p : pipe) : pipe := mkPipe (pp_done p) (pp_todo p ++ b).
(** The transport can answer the next reads with [input]: its data are the next bytes of the stream. *)
Definition pipe_offers (input : list io) (p : pipe) : bool := prefixb (io_data input) (pp_todo p).
(** The reads [input] were offered and [rest] of them were not used. *)
Definition pipe_read (input rest : list io) (p : pipe) : pipe :=
  let n := (length (io_data input) - length (io_data rest))%nat in
  mkPipe (pp_done p ++ firstn n (pp_todo p)) (skipn n (pp_todo p)).

Section End.
Context {S M E : Type}.
Variables (decode : S -> bytes -> dres S M E) (io_err : E) (encode : M -> bytes) (start : S).

(** One end of a connection: the stream coming in and its reader.  The other fields are ghosts: bytes read by the
    authentication handshake, messages read since, bytes written by the handshake, messages written since, and whether the
    handshake (if any) is over. *)
Record endp := mkEnd {
  en_in : pipe; en_fr : framed S;
  en_hs : bytes; en_items : list M; en_greet : bytes; en_sent : list M; en_on : bool }.
(** After the handshake `Framed::new` is called on the connection (req/driver.rs 284, rep/driver.rs 114 and 237,
    pub/driver.rs 128, sub/driver.rs 259); the handshake's own read buffer is gone. *)
Definition end_new : endp := mkEnd pipe_new (framed_new start) [] [] [] [] false.

(** `poll_next` on the connection, the transport offering [input]. *)
Definition end_poll (input : list io) (a : endp) : polled M E * endp :=
  match framed_poll decode io_err (en_fr a) input with
  | (r, f, rest) =>
    (r, mkEnd (pipe_read input rest (en_in a)) f (en_hs a)
              (en_items a ++ match r with PItem m => [m] | _ => [] end) (en_greet a) (en_sent a) (en_on a))
  end.
(** The handshake, offered [input], left [rest] of it. *)
Definition end_hs (input rest : list io) (a : endp) : endp :=
  mkEnd (pipe_read input rest (en_in a)) (en_fr a)
        (en_hs a ++ firstn (length (io_data input) - length (io_data rest)) (pp_todo (en_in a)))
        (en_items a) (en_greet a) (en_sent a) (en_on a).
Definition end_on (a : endp) : endp :=
  mkEnd (en_in a) (en_fr a) (en_hs a) (en_items a) (en_greet a) (en_sent a) true.
Definition end_get (b : bytes) (a : endp) : endp :=
  mkEnd (pipe_write b (en_in a)) (en_fr a) (en_hs a) (en_items a) (en_greet a) (en_sent a) (en_on a).
Definition end_greet (b : bytes) (a : endp) : endp :=
  mkEnd (en_in a) (en_fr a) (en_hs a) (en_items a) (en_greet a ++ b) (en_sent a) (en_on a).
Definition end_send (ms : list M) (a : endp) : endp :=
  mkEnd (en_in a) (en_fr a) (en_hs a) (en_items a) (en_greet a) (en_sent a ++ ms) (en_on a).

(** A connection: the client's and the server's end. *)
Record link := mkLink { lk_c : endp; lk_s : endp }.
Definition link_new : link := mkLink end_new end_new.
(** `start_send` of messages / writes of the handshake, by the client and by the server. *)
Definition link_c_send (ms : list M) (l : link) : link :=
  mkLink (end_send ms (lk_c l)) (end_get (concat (map encode ms)) (lk_s l)).
Definition link_s_send (ms : list M) (l : link) : link :=
  mkLink (end_get (concat (map encode ms)) (lk_c l)) (end_send ms (lk_s l)).
Definition link_c_greet (b : bytes) (l : link) : link := mkLink (end_greet b (lk_c l)) (end_get b (lk_s l)).
Definition link_s_greet (b : bytes) (l : link) : link := mkLink (end_get b (lk_c l)) (end_greet b (lk_s l)).
End End.
Arguments endp : clear implicits.
Arguments link : clear implicits.
Arguments mkLink {S M}.
