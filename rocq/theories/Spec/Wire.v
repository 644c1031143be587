(** Independent description of the wire formats (what a peer written from the protocol description
    would put on the wire), and of byte streams cut into reads. No reference to the codec model. *)
From Coq Require Import List NArith.
From Coq Require Import Init.Byte Strings.Byte.
Import ListNotations.
Open Scope N_scope.
Open Scope list_scope.

(** Value of a big-endian byte string. *)
Fixpoint be_value (b : list byte) : N :=
  match b with
  | [] => 0
  | x :: r => Byte.to_N x * 256 ^ N.of_nat (length r) + be_value r
  end.

(** [b] is the [k]-byte big-endian representation of [n]. *)
Definition is_be (k : nat) (n : N) (b : list byte) : Prop :=
  length b = k /\ be_value b = n.

(** A request/reply frame: 02 | compression type | id (4) | payload size (4) | payload. *)
Definition reqrep_frame (id : N) (ctype : byte) (payload frame : list byte) : Prop :=
  exists idb szb,
    is_be 4 id idb /\ is_be 4 (N.of_nat (length payload)) szb /\
    frame = x02 :: ctype :: idb ++ szb ++ payload.

(** A publish/subscribe frame: 03 | compression type | topic size (2) | topic | timestamp (8) |
    sequence number (4) | payload size (4) | payload. *)
Definition pubsub_frame (ctype : byte) (topic : list byte) (ts seq : N)
    (payload frame : list byte) : Prop :=
  exists tszb tsb seqb szb,
    is_be 2 (N.of_nat (length topic)) tszb /\ is_be 8 ts tsb /\ is_be 4 seq seqb /\
    is_be 4 (N.of_nat (length payload)) szb /\
    frame = x03 :: ctype :: tszb ++ topic ++ tsb ++ seqb ++ szb ++ payload.

(** The client's authentication frame: 01 | token size (4) | token. *)
Definition auth_frame (token frame : list byte) : Prop :=
  exists szb, is_be 4 (N.of_nat (length token)) szb /\ frame = x01 :: szb ++ token.
