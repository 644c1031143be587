(** Vocabulary for the compression properties. *)
From Coq Require Import List NArith.
From Verif Require Import Model.Base Model.Compression.

(** The decompression function the protocol assigns to a compressor's type. *)
Definition inverse_of (D : decompressors) (c : compressor) : Prop :=
  forall p q, cmp_fun c p = Some q ->
    match cmp_type c with
    | CNone => q = p
    | CGzip => d_gzip D q = Some p
    | CZstd => d_zstd D q = Some p
    | CSnappy => d_snappy D q = Some p
    | CLz4 => d_lz4 D q = Some p
    end.
