(** msg-wire/src/pubsub.rs — the publish/subscribe codec. *)
From Verif Require Import Model.Base.

(** pubsub.rs 10 *)
Definition ps_wire_id : byte := x03.

(** pubsub.rs 126-139 (struct Header) *)
Record ps_header := {
  psh_ctype : byte; psh_topic_size : N; psh_topic : bytes;
  psh_timestamp : N; psh_seq : N; psh_size : N }.

(** pubsub.rs 21-25 *)
Record ps_msg := { ps_hdr : ps_header; ps_payload : bytes }.

(** pubsub.rs 47-59 Message::new.  [None] is the panic of `expect("Topic too large")`.
    `unix_micros()` (msg-common) is an argument. *)
Definition ps_new (now seq : N) (topic payload : bytes) (ctype : byte) : option ps_msg :=
  if blen topic <? 2 ^ 16 then
    Some {| ps_hdr := {| psh_ctype := ctype; psh_topic_size := blen topic; psh_topic := topic;
                         psh_timestamp := now; psh_seq := seq; psh_size := as_u32 (blen payload) |};
            ps_payload := payload |}
  else None.

(** the literal "MSG.SUB." of pubsub.rs 65 *)
Definition sub_prefix : bytes := [x4d; x53; x47; x2e; x53; x55; x42; x2e].
(** the literal "MSG.UNSUB." of pubsub.rs 74 *)
Definition unsub_prefix : bytes := [x4d; x53; x47; x2e; x55; x4e; x53; x55; x42; x2e].

(** pubsub.rs 64-68 *)
Definition ps_new_sub (now : N) (topic : bytes) : option ps_msg :=
  ps_new now 0 (sub_prefix ++ topic) [] x00.
(** pubsub.rs 73-77 *)
Definition ps_new_unsub (now : N) (topic : bytes) : option ps_msg :=
  ps_new now 0 (unsub_prefix ++ topic) [] x00.

(** pubsub.rs 80-122 accessors *)
Definition ps_seq (m : ps_msg) : N := psh_seq (ps_hdr m).
Definition ps_payload_size (m : ps_msg) : N := psh_size (ps_hdr m).
Definition ps_timestamp (m : ps_msg) : N := psh_timestamp (ps_hdr m).
Definition ps_ctype (m : ps_msg) : byte := psh_ctype (ps_hdr m).
Definition ps_topic (m : ps_msg) : bytes := psh_topic (ps_hdr m).

(** pubsub.rs 144-151 Header::len *)
Definition ps_header_len (h : ps_header) : N := 8 + 4 + 4 + 2 + 1 + psh_topic_size h.
(** pubsub.rs 95-97 Message::size *)
Definition ps_size (m : ps_msg) : N := ps_header_len (ps_hdr m) + ps_payload_size m.

(** pubsub.rs 13-18 *)
Inductive ps_err := PSWireId (b : byte) | PSIo.

(** pubsub.rs 159-163.  [PSPayload None] cannot be left behind by `decode` (the `take()` of line 245
    is followed by the assignment of line 250) but is kept: unwrapping it panics. *)
Inductive ps_state := PSHeader | PSPayload (h : option ps_header).

(** pubsub.rs 240-252 *)
Definition ps_decode_payload (oh : option ps_header) (src : bytes) : dres ps_state ps_msg ps_err :=
  match oh with
  | None => DPanic
  | Some h =>
    if blen src <? psh_size h then DNone (PSPayload oh) src
    else match split_to (psh_size h) src with
         | None => DPanic
         | Some (payload, rest) => DMsg {| ps_hdr := h; ps_payload := payload |} PSHeader rest
         end
  end.

(** pubsub.rs 184-239 *)
Definition ps_decode_header (src : bytes) : dres ps_state ps_msg ps_err :=
  if match src with [] => true | _ => false end then DNone PSHeader src
  else match index src 0 with
  | None => DPanic
  | Some wire_id =>
    if negb (Byte.eqb wire_id ps_wire_id) then DErr (PSWireId wire_id) PSHeader src
    else if blen src <? 1 + 1 then DNone PSHeader src
    else match index src 1 with
    | None => DPanic
    | Some ctype =>
      if blen src <? 2 + 2 then DNone PSHeader src
      else match index src 2, index src 3 with
      | Some b2, Some b3 =>
        let topic_size := get_be [b2; b3] in
        if blen src <? 4 + topic_size + 8 + 8 then DNone PSHeader src
        else match split_to 4 src with
        | None => DPanic
        | Some (_, src1) =>
          match split_to topic_size src1 with
          | None => DPanic
          | Some (topic, src2) =>
            match split_to 8 src2 with
            | None => DPanic
            | Some (tsb, src3) =>
              match split_to 4 src3 with
              | None => DPanic
              | Some (seqb, src4) =>
                match split_to 4 src4 with
                | None => DPanic
                | Some (szb, src5) =>
                  ps_decode_payload
                    (Some {| psh_ctype := ctype; psh_topic_size := topic_size; psh_topic := topic;
                             psh_timestamp := get_be tsb; psh_seq := get_be seqb;
                             psh_size := get_be szb |}) src5
                end
              end
            end
          end
        end
      | _, _ => DPanic
      end
    end
  end.

(** pubsub.rs 181-255 Decoder::decode *)
Definition ps_decode (s : ps_state) (src : bytes) : dres ps_state ps_msg ps_err :=
  match s with
  | PSHeader => ps_decode_header src
  | PSPayload h => ps_decode_payload h src
  end.

(** pubsub.rs 261-275 Encoder::encode: the bytes appended to [dst] *)
Definition ps_encode (m : ps_msg) : bytes :=
  let h := ps_hdr m in
  ps_wire_id :: psh_ctype h :: put_be 2 (psh_topic_size h) ++ psh_topic h
    ++ put_be 8 (psh_timestamp h) ++ put_be 4 (psh_seq h) ++ put_be 4 (psh_size h) ++ ps_payload m.
