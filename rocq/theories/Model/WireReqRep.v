(** msg-wire/src/reqrep.rs — the request/reply codec. *)
From Verif Require Import Model.Base.

(** reqrep.rs 6 *)
Definition rr_wire_id : byte := x02.

(** reqrep.rs 64-71 (struct Header) *)
Record rr_header := { rrh_ctype : byte; rrh_id : N; rrh_size : N }.

(** reqrep.rs 19-24 (struct Message) *)
Record rr_msg := { rr_hdr : rr_header; rr_payload : bytes }.

(** reqrep.rs 28-30 Message::new.  [size: payload.len() as u32] truncates. *)
Definition rr_new (id : N) (ctype : byte) (payload : bytes) : rr_msg :=
  {| rr_hdr := {| rrh_ctype := ctype; rrh_id := id; rrh_size := as_u32 (blen payload) |};
     rr_payload := payload |}.

(** reqrep.rs 33-35 *)
Definition rr_id (m : rr_msg) : N := rrh_id (rr_hdr m).
(** reqrep.rs 38-40 *)
Definition rr_payload_size (m : rr_msg) : N := rrh_size (rr_hdr m).
(** reqrep.rs 76-80 Header::len *)
Definition rr_header_len : N := 4 + 4 + 1.
(** reqrep.rs 43-45 Message::size *)
Definition rr_size (m : rr_msg) : N := rr_header_len + rr_payload_size m.
(** reqrep.rs 88-90 Header::compression_type (via Message::header) *)
Definition rr_ctype (m : rr_msg) : byte := rrh_ctype (rr_hdr m).

(** reqrep.rs 9-16 enum Error; Io is produced by Framed only, Decompression by nobody here. *)
Inductive rr_err := RRWireId (b : byte) | RRIo.

(** reqrep.rs 94-98 *)
Inductive rr_state := RRHeader | RRPayload (h : rr_header).

(** reqrep.rs 155-165, the [State::Payload] arm *)
Definition rr_decode_payload (h : rr_header) (src : bytes) : dres rr_state rr_msg rr_err :=
  if blen src <? rrh_size h then DNone (RRPayload h) src
  else match split_to (rrh_size h) src with
       | None => DPanic
       | Some (payload, rest) => DMsg {| rr_hdr := h; rr_payload := payload |} RRHeader rest
       end.

(** reqrep.rs 119-154, the [State::Header] arm; the loop of line 117 then continues with the
    [State::Payload] arm, which always returns. *)
Definition rr_decode_header (src : bytes) : dres rr_state rr_msg rr_err :=
  if match src with [] => true | _ => false end then DNone RRHeader src
  else match index src 0 with
  | None => DPanic
  | Some wire_id =>
    if negb (Byte.eqb wire_id rr_wire_id) then DErr (RRWireId wire_id) RRHeader src
    else if blen src <? 1 + 1 then DNone RRHeader src
    else match index src 1 with
    | None => DPanic
    | Some ctype =>
      if blen src <? 2 + 8 then DNone RRHeader src
      else match split_to 2 src with
      | None => DPanic
      | Some (_, src1) =>
        match split_to 4 src1 with
        | None => DPanic
        | Some (idb, src2) =>
          match split_to 4 src2 with
          | None => DPanic
          | Some (szb, src3) =>
            rr_decode_payload
              {| rrh_ctype := ctype; rrh_id := get_be idb; rrh_size := get_be szb |} src3
          end
        end
      end
    end
  end.

(** reqrep.rs 116-168 Decoder::decode *)
Definition rr_decode (s : rr_state) (src : bytes) : dres rr_state rr_msg rr_err :=
  match s with
  | RRHeader => rr_decode_header src
  | RRPayload h => rr_decode_payload h src
  end.

(** reqrep.rs 174-184 Encoder::encode: the bytes appended to [dst].  (The encoder has no state and
    cannot fail.) *)
Definition rr_encode (m : rr_msg) : bytes :=
  rr_wire_id :: rrh_ctype (rr_hdr m)
    :: put_be 4 (rrh_id (rr_hdr m)) ++ put_be 4 (rrh_size (rr_hdr m)) ++ rr_payload m.
