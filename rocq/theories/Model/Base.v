(** Bytes, big-endian integers and the result type of decoders.

    Models the parts of the `bytes` 1.5 crate (Buf/BufMut: put_u8, put_u16, put_u32,
    put_u64, get_u32, ..., split_to, advance) that the codecs of msg-wire use.
    `Bytes` and `BytesMut` are lists of bytes; capacity (`reserve`) has no observable
    effect and is not modelled. *)
From Coq Require Export List NArith Lia Bool.
From Coq Require Export Init.Byte Strings.Byte.
Export ListNotations.
Open Scope N_scope.
Open Scope list_scope.

Notation bytes := (list byte).

(** [usize] lengths are unbounded [N]. *)
Definition blen {A} (b : list A) : N := N.of_nat (length b).

(** [x as u8] / a byte with value [n mod 256]. *)
Definition byte_of (n : N) : byte :=
  match Byte.of_N (n mod 256) with Some b => b | None => x00 end.

(** BufMut::put_u16 / put_u32 / put_u64: [k] bytes, most significant first. *)
Fixpoint put_be (k : nat) (n : N) : bytes :=
  match k with
  | O => []
  | S k' => byte_of (n / 256 ^ N.of_nat k') :: put_be k' n
  end.

(** Buf::get_u16 / get_u32 / get_u64, u32::from_be_bytes: big-endian value. *)
Definition get_be (b : bytes) : N :=
  fold_left (fun acc x => acc * 256 + Byte.to_N x) b 0.

(** BytesMut::split_to(n) / advance(n): first [n] bytes and the rest.  [None] models the
    panic when fewer than [n] bytes are present. *)
Definition split_to (n : N) (b : bytes) : option (bytes * bytes) :=
  if blen b <? n then None
  else Some (firstn (N.to_nat n) b, skipn (N.to_nat n) b).

(** Indexing `src[i]`; [None] models the out-of-bounds panic. *)
Definition index (b : bytes) (i : nat) : option byte := nth_error b i.

(** Result of `Decoder::decode(&mut self, src: &mut BytesMut)`: the value returned together
    with the new codec state and the new contents of [src].  [DPanic] is a Rust panic. *)
Inductive dres (S M E : Type) : Type :=
| DNone (s : S) (rest : bytes)            (* Ok(None) *)
| DMsg  (m : M) (s : S) (rest : bytes)    (* Ok(Some(m)) *)
| DErr  (e : E) (s : S) (rest : bytes)    (* Err(e) *)
| DPanic.
Arguments DNone {S M E}. Arguments DMsg {S M E}. Arguments DErr {S M E}. Arguments DPanic {S M E}.

(** [a as u32]: truncation. *)
Definition as_u32 (n : N) : N := n mod 2 ^ 32.
(** [u32::wrapping_add]. *)
Definition wrapping_add32 (a b : N) : N := (a + b) mod 2 ^ 32.
