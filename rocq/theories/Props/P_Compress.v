(** GENERATED by tools/gen_props.py from Proofs/T_Compress.v: statements only. *)

(** Compression: C08, C09. *)
From Coq Require Import List NArith.
From Verif Require Import Model.Base Model.WireReqRep Model.WirePubSub Model.Compression Spec.CompressSpec.
Import ListNotations.
Open Scope N_scope.
From Verif Require Import Proofs.T_Compress.

(** C08: which decompressor the receiver applies, for all 256 type bytes: 0 is the identity, 1..4 the four
    algorithms, everything else an error. *)
Theorem C08_decompressor_selected_by_header :
  forall (D : decompressors) (b : byte) (data : bytes),
  match Byte.to_N b with
  | 0 => try_decompress D b data = Some data
  | 1 => try_decompress D b data = d_gzip D data
  | 2 => try_decompress D b data = d_zstd D data
  | 3 => try_decompress D b data = d_snappy D data
  | 4 => try_decompress D b data = d_lz4 D data
  | _ => try_decompress D b data = None
  end.
Proof. exact C08_decompressor_selected_by_header_pf. Qed.
Print Assumptions C08_decompressor_selected_by_header.

(** C08, request path: whatever the compressor (none, failing, of any type), threshold and payload, a receiver
    whose algorithms invert the sender's obtains the original payload from the decoded frame. *)
Theorem C08_request_transparent :
  forall (D : decompressors) (co : option compressor) (min id : N) (payload more : bytes),
  (forall c, co = Some c -> inverse_of D c) ->
  let w := req_into_wire id (req_outgoing min co payload) in
  id < 2 ^ 32 -> blen (rr_payload w) < 2 ^ 32 ->
  exists m, rr_decode RRHeader (rr_encode w ++ more) = DMsg m RRHeader more /\
            rr_id m = id /\ try_decompress D (rr_ctype m) (rr_payload m) = Some payload.
Proof. exact C08_request_transparent_pf. Qed.
Print Assumptions C08_request_transparent.

(** C08, respond(). *)
Theorem C08_response_transparent :
  forall (D : decompressors) (co : option compressor) (min id : N) (payload more : bytes) (w : rr_msg),
  (forall c, co = Some c -> inverse_of D c) ->
  rep_outgoing min co id payload = Some w ->
  id < 2 ^ 32 -> blen (rr_payload w) < 2 ^ 32 ->
  exists m, rr_decode RRHeader (rr_encode w ++ more) = DMsg m RRHeader more /\
            rr_id m = id /\ try_decompress D (rr_ctype m) (rr_payload m) = Some payload.
Proof. exact C08_response_transparent_pf. Qed.
Print Assumptions C08_response_transparent.

(** C08, publish() and try_publish(). *)
Theorem C08_publish_transparent :
  forall (D : decompressors) (co : option compressor) (min now seq : N) (topic payload more : bytes)
         (o : omsg) (w : ps_msg),
  (forall c, co = Some c -> inverse_of D c) ->
  publish_outgoing min co payload = Some o \/ try_publish_outgoing min co payload = Some o ->
  pub_into_wire now seq topic o = Some w ->
  now < 2 ^ 64 -> seq < 2 ^ 32 -> blen (ps_payload w) < 2 ^ 32 ->
  exists m, ps_decode PSHeader (ps_encode w ++ more) = DMsg m PSHeader more /\
            ps_topic m = topic /\ ps_seq m = seq /\ try_decompress D (ps_ctype m) (ps_payload m) = Some payload.
Proof. exact C08_publish_transparent_pf. Qed.
Print Assumptions C08_publish_transparent.

Example C08_example :
  let D := {| d_gzip := fun _ => None; d_zstd := fun _ => None; d_snappy := fun _ => None;
              d_lz4 := fun q => match q with x7f :: p => Some p | _ => None end |} in
  let c := {| cmp_type := CLz4; cmp_fun := fun p => Some (x7f :: p) |} in
  inverse_of D c /\ req_outgoing 1 (Some c) [x41; x42] = {| om_ctype := CLz4; om_payload := [x7f; x41; x42] |} /\
  publish_outgoing 1 (Some c) [x41; x42] = Some {| om_ctype := CLz4; om_payload := [x7f; x41; x42] |}.
Proof. exact C08_example_pf. Qed.

(** C09 (violated): respond() and try_publish() compress payloads below the threshold; request() and publish()
    do not compress a payload of exactly the threshold. *)
Theorem C09_threshold_refuted :
  let c := {| cmp_type := CGzip; cmp_fun := fun p => Some (x7f :: p) |} in
  (exists min payload w, blen payload < min /\ rep_outgoing min (Some c) 0 payload = Some w /\ rr_ctype w <> x00) /\
  (exists min payload o, blen payload < min /\ try_publish_outgoing min (Some c) payload = Some o /\ om_ctype o <> CNone) /\
  (exists min payload, min <= blen payload /\ om_ctype (req_outgoing min (Some c) payload) = CNone) /\
  (exists min payload o, min <= blen payload /\ publish_outgoing min (Some c) payload = Some o /\ om_ctype o = CNone).
Proof. exact C09_threshold_refuted_pf. Qed.
Print Assumptions C09_threshold_refuted.

(** C09, what holds: request() and publish() leave payloads up to and including the threshold unchanged with
    type 0 and compress larger ones; without a compressor nothing is ever changed. (A failing compressor makes
    publish() return the error, while request() sends the payload uncompressed.) Missing: respond(),
    try_publish() and the payload of exactly the threshold size. *)
Theorem C09_threshold_partial :
  forall (min id : N) (payload : bytes) (c : compressor),
  (blen payload <= min ->
     req_outgoing min (Some c) payload = {| om_ctype := CNone; om_payload := payload |} /\
     publish_outgoing min (Some c) payload = Some {| om_ctype := CNone; om_payload := payload |}) /\
  (min < blen payload ->
     match cmp_fun c payload with
     | Some q => req_outgoing min (Some c) payload = {| om_ctype := cmp_type c; om_payload := q |} /\
                 publish_outgoing min (Some c) payload = Some {| om_ctype := cmp_type c; om_payload := q |}
     | None => req_outgoing min (Some c) payload = {| om_ctype := CNone; om_payload := payload |} /\
               publish_outgoing min (Some c) payload = None
     end) /\
  req_outgoing min None payload = {| om_ctype := CNone; om_payload := payload |} /\
  publish_outgoing min None payload = Some {| om_ctype := CNone; om_payload := payload |} /\
  try_publish_outgoing min None payload = Some {| om_ctype := CNone; om_payload := payload |} /\
  (exists w, rep_outgoing min None id payload = Some w /\ rr_ctype w = x00 /\ rr_payload w = payload).
Proof. exact C09_threshold_partial_pf. Qed.
Print Assumptions C09_threshold_partial.

(** C09, exact law of the two paths that ignore the threshold: with a compressor they always compress. *)
Theorem C09_threshold_ignored_partial :
  forall (min id : N) (payload q : bytes) (c : compressor), cmp_fun c payload = Some q ->
  try_publish_outgoing min (Some c) payload = Some {| om_ctype := cmp_type c; om_payload := q |} /\
  exists w, rep_outgoing min (Some c) id payload = Some w /\ rr_id w = id /\
            rr_ctype w = ctype_byte (cmp_type c) /\ rr_payload w = q.
Proof. exact C09_threshold_ignored_partial_pf. Qed.
Print Assumptions C09_threshold_ignored_partial.

