(** The client's side of the handshake, as seen on the wire. *)
From Coq Require Import List NArith.
From Verif Require Import Model.Base.
Import ListNotations.

(** What the bytes [b] a client has received from the server so far say: an acknowledgement (the frame 01 v with v <> 0),
    a refusal (01 00, or anything that does not start with 01), or nothing yet (less than two bytes). *)
Inductive verdict := Acked | Refused | NoVerdict.
Definition server_says (b : bytes) : verdict :=
  match b with
  | x :: v :: _ => if Byte.eqb x x01 then if Byte.eqb v x00 then Refused else Acked else Refused
  | _ => NoVerdict
  end.
