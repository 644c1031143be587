(** msg-wire/src/compression/mod.rs and the places where msg-socket compresses / decompresses. *)
From Verif Require Import Model.Base Model.WireReqRep Model.WirePubSub.

(** compression/mod.rs 19-25 *)
Inductive ctype := CNone | CGzip | CZstd | CSnappy | CLz4.

(** `compression_type as u8` *)
Definition ctype_byte (c : ctype) : byte :=
  match c with CNone => x00 | CGzip => x01 | CZstd => x02 | CSnappy => x03 | CLz4 => x04 end.

(** compression/mod.rs 30-39 TryFrom<u8>; the error value is the byte itself *)
Definition ctype_try_from (b : byte) : ctype + byte :=
  match b with
  | x00 => inl CNone | x01 => inl CGzip | x02 => inl CZstd | x03 => inl CSnappy | x04 => inl CLz4
  | _ => inr b
  end.

(** compression/mod.rs 44-50 trait Compressor: the user may plug in any implementation.  [None] is
    Err(io::Error). *)
Record compressor := { cmp_type : ctype; cmp_fun : bytes -> option bytes }.

(** The four built-in decompressors (gzip.rs 40-49, zstd.rs, snappy.rs, lz4.rs): third-party
    algorithms, kept abstract. *)
Record decompressors := {
  d_gzip : bytes -> option bytes; d_zstd : bytes -> option bytes;
  d_snappy : bytes -> option bytes; d_lz4 : bytes -> option bytes }.

(** compression/mod.rs 66-80 try_decompress_payload *)
Definition try_decompress (D : decompressors) (b : byte) (data : bytes) : option bytes :=
  match ctype_try_from b with
  | inl CNone => Some data
  | inl CGzip => d_gzip D data
  | inl CZstd => d_zstd D data
  | inl CSnappy => d_snappy D data
  | inl CLz4 => d_lz4 D data
  | inr _ => None
  end.

(** req/mod.rs 143-146 (struct ReqMessage), pub/mod.rs 112-119 (struct PubMessage, without the topic) *)
Record omsg := { om_ctype : ctype; om_payload : bytes }.

(** req/mod.rs 149-156 ReqMessage::new, pub/mod.rs 123-131 PubMessage::new *)
Definition om_new (payload : bytes) : omsg := {| om_ctype := CNone; om_payload := payload |}.

(** req/mod.rs 174-179 ReqMessage::compress, pub/mod.rs 159-164 PubMessage::compress.
    [None]: the compressor failed and `?` returned early, leaving the message unchanged. *)
Definition om_compress (c : compressor) (m : omsg) : option omsg :=
  match cmp_fun c (om_payload m) with
  | None => None
  | Some p => Some {| om_ctype := cmp_type c; om_payload := p |}
  end.

(** req/driver.rs 171-184: request path; a compression error is only logged and the message is sent
    uncompressed. *)
Definition req_outgoing (min : N) (co : option compressor) (payload : bytes) : omsg :=
  let m := om_new payload in
  if min <? blen payload then
    match co with
    | Some c => match om_compress c m with Some m' => m' | None => m end
    | None => m
    end
  else m.

(** req/driver.rs 186 + req/mod.rs 169-171 ReqMessage::into_wire *)
Definition req_into_wire (id : N) (m : omsg) : rr_msg := rr_new id (ctype_byte (om_ctype m)) (om_payload m).

(** pub/socket.rs 148-160 publish; [None] is Err(PubError::Io) returned to the caller *)
Definition publish_outgoing (min : N) (co : option compressor) (payload : bytes) : option omsg :=
  let m := om_new payload in
  if min <? blen payload then
    match co with Some c => om_compress c m | None => Some m end
  else Some m.

(** pub/socket.rs 172-183 try_publish: no threshold *)
Definition try_publish_outgoing (min : N) (co : option compressor) (payload : bytes) : option omsg :=
  let m := om_new payload in
  match co with Some c => om_compress c m | None => Some m end.

(** pub/mod.rs 149-156 PubMessage::into_wire; [None] is the panic for an oversized topic *)
Definition pub_into_wire (now seq : N) (topic : bytes) (m : omsg) : option ps_msg :=
  ps_new now seq topic (om_payload m) (ctype_byte (om_ctype m)).

(** rep/driver.rs 294-316: response path (no threshold); [None]: compression failed, the response is
    dropped (`continue`). *)
Definition rep_outgoing (min : N) (co : option compressor) (id : N) (payload : bytes) : option rr_msg :=
  match co with
  | None => Some (rr_new id x00 payload)
  | Some c =>
    match cmp_fun c payload with
    | None => None
    | Some p => Some (rr_new id (ctype_byte (cmp_type c)) p)
    end
  end.
