(** UTF-8 (RFC 3629): a byte sequence is valid when it is the concatenation of the encodings of Unicode scalar values. *)
From Coq Require Import List NArith.
From Verif Require Import Model.Base.
Import ListNotations.
Open Scope N_scope.

Definition scalar (c : N) : Prop := c < 0xd800 \/ 0xe000 <= c /\ c < 0x110000.
Definition utf8_char (c : N) : list byte :=
  if c <? 0x80 then [byte_of c]
  else if c <? 0x800 then [byte_of (0xc0 + c / 64); byte_of (0x80 + c mod 64)]
  else if c <? 0x10000 then [byte_of (0xe0 + c / 4096); byte_of (0x80 + c / 64 mod 64); byte_of (0x80 + c mod 64)]
  else [byte_of (0xf0 + c / 262144); byte_of (0x80 + c / 4096 mod 64); byte_of (0x80 + c / 64 mod 64); byte_of (0x80 + c mod 64)].
Definition utf8 (b : list byte) : Prop := exists cs, Forall scalar cs /\ b = flat_map utf8_char cs.
