(** GENERATED by tools/gen_props.py from Proofs/T_Wire2.v: statements only. *)

(** Properties of connections that end in the middle of a message: C59. *)
From Coq Require Import List NArith.
From Verif Require Import Model.Base Model.Framed Model.WireReqRep Model.WirePubSub
  Spec.Wire Spec.Stream.
Import ListNotations.
Open Scope N_scope.
From Verif Require Import Proofs.T_Wire2.

(** C59, request/reply. After any complete frames the peer sends only a proper part of a frame and closes:
    the cut message is not delivered, and the end of the stream is reported as an error, except when exactly
    the ten header bytes of a frame with a payload arrived: then it looks like an orderly close. *)
Theorem C59_truncation_reported_partial :
  forall (reqs : list (N * byte * bytes)) (frames : list bytes) (id : N) (c : byte) (p part missing : bytes)
         (input : list io) (n : nat),
  Forall2 (fun r f => reqrep_frame (fst (fst r)) (snd (fst r)) (snd r) f) reqs frames ->
  reqrep_frame id c p (part ++ missing) -> part <> [] -> missing <> [] ->
  Forall delivery input -> received input = concat frames ++ part ->
  (length reqs + length input + 2 <= n)%nat ->
  let rs := fst (fst (framed_polls rr_decode RRIo n (framed_new RRHeader) (input ++ ending_io Eof))) in
  exists ms : list rr_msg,
    map (fun m => (rr_id m, rr_ctype m, rr_payload m)) ms = reqs /\
    (length part <> 10%nat -> observed rs = map PItem ms ++ [PFail RRIo]) /\
    (length part = 10%nat -> observed rs = map PItem ms ++ [PEnd]).
Proof. exact C59_truncation_reported_partial_pf. Qed.
Print Assumptions C59_truncation_reported_partial.

(** C59, publish/subscribe: the same, the header being 20 bytes plus the topic. *)
Theorem C59_pubsub_truncation_reported_partial :
  forall (msgs : list (byte * bytes * N * N * bytes)) (frames : list bytes)
         (c : byte) (topic : bytes) (ts seq : N) (p part missing : bytes) (input : list io) (n : nat),
  Forall2 (fun m f => let '(c, topic, ts, seq, p) := m in pubsub_frame c topic ts seq p f) msgs frames ->
  pubsub_frame c topic ts seq p (part ++ missing) -> part <> [] -> missing <> [] ->
  Forall delivery input -> received input = concat frames ++ part ->
  (length msgs + length input + 2 <= n)%nat ->
  let rs := fst (fst (framed_polls ps_decode PSIo n (framed_new PSHeader) (input ++ ending_io Eof))) in
  exists ms : list ps_msg,
    map (fun m => (ps_ctype m, ps_topic m, ps_timestamp m, ps_seq m, ps_payload m)) ms = msgs /\
    (length part <> (20 + length topic)%nat -> observed rs = map PItem ms ++ [PFail PSIo]) /\
    (length part = (20 + length topic)%nat -> observed rs = map PItem ms ++ [PEnd]).
Proof. exact C59_pubsub_truncation_reported_partial_pf. Qed.
Print Assumptions C59_pubsub_truncation_reported_partial.

(** C59 (violated): a peer that dies right after the header of a 5-byte message is indistinguishable from an
    orderly close. *)
Theorem C59_truncation_reported_refuted :
  exists (part missing : bytes), reqrep_frame 1 x00 missing (part ++ missing) /\ length missing = 5%nat /\
  observed (fst (fst (framed_polls rr_decode RRIo 9 (framed_new RRHeader) ([IoData part] ++ ending_io Eof)))) = [PEnd].
Proof. exact C59_truncation_reported_refuted_pf. Qed.
Print Assumptions C59_truncation_reported_refuted.

Example C59_example :
  let part := [x02; x00; x00; x00; x00; x01; x00; x00; x00; x05; x68] in
  let missing := [x65; x6c; x6c; x6f] in
  reqrep_frame 1 x00 (x68 :: missing) (part ++ missing) /\
  observed (fst (fst (framed_polls rr_decode RRIo 9 (framed_new RRHeader) ([IoData part] ++ ending_io Eof)))) = [PFail RRIo].
Proof. exact C59_example_pf. Qed.

