(** tokio-util 0.7.10 `Framed` (codec/framed_impl.rs, FramedImpl::poll_next): the read half, generic
    in the decoder.  External code, modelled from its source; used by every connection in msg-socket
    (e.g. req/driver.rs 77, 113; rep/driver.rs 114, 237; pub/driver.rs 128; sub/driver.rs 259). *)
From Verif Require Import Model.Base.

(** What the transport does when polled for reading. *)
Inductive io :=
| IoData (chunk : bytes)   (* poll_read_buf = Ready(Ok(n)), n > 0 when the chunk is non-empty; an
                              empty chunk is Ready(Ok(0)), i.e. end of file *)
| IoPending                (* not ready now *)
| IoErr.                   (* Ready(Err(_)) *)

(** What `poll_next` returns. *)
Inductive polled (M E : Type) :=
| PItem (m : M)       (* Ready(Some(Ok(m))) *)
| PFail (e : E)       (* Ready(Some(Err(e))) *)
| PEnd                (* Ready(None) *)
| PPending            (* Pending *)
| PPanic.             (* the decoder panicked *)
Arguments PItem {M E}. Arguments PFail {M E}. Arguments PEnd {M E}.
Arguments PPending {M E}. Arguments PPanic {M E}.

(** FramedImpl's ReadFrame state plus the codec. *)
Record framed (S : Type) := mkFramed {
  fr_codec : S; fr_buf : bytes; fr_readable : bool; fr_eof : bool; fr_errored : bool }.
Arguments mkFramed {S}. Arguments fr_codec {S}. Arguments fr_buf {S}.
Arguments fr_readable {S}. Arguments fr_eof {S}. Arguments fr_errored {S}.

(** Framed::new: empty buffer. *)
Definition framed_new {S} (s : S) : framed S := mkFramed s [] false false false.

Section Framed.
Context {S M E : Type}.
Variable decode : S -> bytes -> dres S M E.
(** the codec error built from an `io::Error` (`From<io::Error>`) *)
Variable io_err : E.

(** The part of one loop iteration before the read: `Some` result means `return`. *)
Definition framed_front (f : framed S) : option (polled M E) * framed S :=
  if fr_errored f then
    (Some PEnd, mkFramed (fr_codec f) (fr_buf f) false (fr_eof f) false)
  else if fr_readable f then
    if fr_eof f then
      (* Decoder::decode_eof, default implementation: decode; if None and the buffer is not empty,
         Err("bytes remaining on stream") *)
      match decode (fr_codec f) (fr_buf f) with
      | DMsg m s b => (Some (PItem m), mkFramed s b true true false)
      | DErr e s b => (Some (PFail e), mkFramed s b true true true)
      | DNone s [] => (Some PEnd, mkFramed s [] false true false)
      | DNone s b => (Some (PFail io_err), mkFramed s b true true true)
      | DPanic => (Some PPanic, f)
      end
    else
      match decode (fr_codec f) (fr_buf f) with
      | DMsg m s b => (Some (PItem m), mkFramed s b true false false)
      | DErr e s b => (Some (PFail e), mkFramed s b true false true)
      | DNone s b => (None, mkFramed s b false false false)
      | DPanic => (Some PPanic, f)
      end
  else (None, f).

(** One call of `poll_next` against the transport's behaviour [input] (the results of successive reads;
    the exhausted list stands for "not ready"). *)
Fixpoint framed_poll (f : framed S) (input : list io) : polled M E * framed S * list io :=
  match framed_front f with
  | (Some r, f') => (r, f', input)
  | (None, f') =>
    match input with
    | [] => (PPending, f', [])
    | IoPending :: rest => (PPending, f', rest)
    | IoErr :: rest =>
      (PFail io_err, mkFramed (fr_codec f') (fr_buf f') (fr_readable f') (fr_eof f') true, rest)
    | IoData [] :: rest =>
      if fr_eof f' then (PEnd, f', rest)
      else framed_poll (mkFramed (fr_codec f') (fr_buf f') true true (fr_errored f')) rest
    | IoData (x :: c) :: rest =>
      framed_poll (mkFramed (fr_codec f') (fr_buf f' ++ x :: c) true false (fr_errored f')) rest
    end
  end.

(** [n] successive calls of `poll_next`. *)
Fixpoint framed_polls (n : nat) (f : framed S) (input : list io)
  : list (polled M E) * framed S * list io :=
  match n with
  | O => ([], f, input)
  | Datatypes.S n' =>
    let '(r, f1, i1) := framed_poll f input in
    let '(rs, f2, i2) := framed_polls n' f1 i1 in
    (r :: rs, f2, i2)
  end.
End Framed.
