(** msg-wire/src/auth.rs — the authentication codec. *)
From Verif Require Import Model.Base.

(** auth.rs 6 *)
Definition au_wire_id : byte := x01.
(** auth.rs 9-16 *)
Inductive au_err := AUWireId (b : byte) | AURejected | AUIo.
(** auth.rs 39-44 *)
Inductive au_state := AUReceive | AUAck.
(** auth.rs 47-54 *)
Inductive au_msg := AuthM (id : bytes) | AckM | RejectM.

(** auth.rs 26-28 Codec::new_client, 33-35 Codec::new_server *)
Definition au_client : au_state := AUAck.
Definition au_server : au_state := AUReceive.

(** auth.rs 60-114 Decoder::decode *)
Definition au_decode (s : au_state) (src : bytes) : dres au_state au_msg au_err :=
  match s with
  | AUReceive =>
    (* 65 *)
    if match src with [] => true | _ => false end then DNone AUReceive src
    else match index src 0 with
    | None => DPanic
    | Some wire_id =>
      (* 71 *)
      if negb (Byte.eqb wire_id au_wire_id) then DErr (AUWireId wire_id) AUReceive src
      (* 75 *)
      else if blen src <? 4 then DNone AUReceive src
      (* 79: src[4] panics when exactly 4 bytes are buffered *)
      else match index src 1, index src 2, index src 3, index src 4 with
      | Some b1, Some b2, Some b3, Some b4 =>
        let id_size := get_be [b1; b2; b3; b4] in
        (* 80 *)
        if blen src <? id_size then DNone AUReceive src
        (* 84-85 *)
        else match split_to 1 src with
        | None => DPanic
        | Some (_, src1) =>
          match split_to 4 src1 with
          | None => DPanic
          | Some (_, src2) =>
            (* 87: split_to panics when fewer than id_size bytes are left *)
            match split_to id_size src2 with
            | None => DPanic
            | Some (id, rest) => DMsg (AuthM id) AUAck rest
            end
          end
        end
      | _, _, _, _ => DPanic
      end
    end
  | AUAck =>
    (* 93 *)
    if blen src <? 2 then DNone AUAck src
    else match index src 0 with
    | None => DPanic
    | Some wire_id =>
      (* 99 *)
      if negb (Byte.eqb wire_id au_wire_id) then DErr (AUWireId wire_id) AUAck src
      else match split_to 1 src with
      | None => DPanic
      | Some (_, src1) =>
        (* 105 get_u8 *)
        match split_to 1 src1 with
        | None => DPanic
        | Some (ackb, rest) =>
          (* 107 *)
          if get_be ackb =? 0 then DErr AURejected AUAck rest else DMsg AckM AUAck rest
        end
      end
    end
  end.

(** auth.rs 120-144 Encoder::encode: bytes appended and new codec state *)
Definition au_encode (s : au_state) (m : au_msg) : bytes * au_state :=
  match m with
  | AuthM id => (au_wire_id :: put_be 4 (as_u32 (blen id)) ++ id, AUAck)
  | AckM => ([au_wire_id; x01], s)
  | RejectM => ([au_wire_id; x00], s)
  end.
