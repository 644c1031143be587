(** GENERATED by tools/gen_props.py from Proofs/T_Wire.v: statements only. *)

(** Properties of the wire codecs: C01-C07. *)
From Coq Require Import List NArith.
From Verif Require Import Model.Base Model.Framed Model.WireReqRep Model.WirePubSub Model.WireAuth
  Spec.Wire Spec.Stream Spec.AuthCuts.
Import ListNotations.
Open Scope N_scope.
From Verif Require Import Proofs.T_Wire.

(** C01. Frames of any list of (id, compression type, payload), built from the protocol description,
    delivered in any pieces at any moments: at every moment the results seen are a prefix of the
    messages, after enough polls they are exactly the messages, and the decoder is back in its initial
    state with nothing buffered. *)
Theorem C01_reqrep_fragmentation :
  forall (reqs : list (N * byte * bytes)) (frames : list bytes) (input : list io) (n : nat),
  Forall2 (fun r f => reqrep_frame (fst (fst r)) (snd (fst r)) (snd r) f) reqs frames ->
  Forall delivery input ->
  received input = concat frames ->
  exists ms : list rr_msg,
    map (fun m => (rr_id m, rr_ctype m, rr_payload m)) ms = reqs /\
    let '(rs, f', rest) := framed_polls rr_decode RRIo n (framed_new RRHeader) input in
    prefix_of (observed rs) (map PItem ms) /\
    ((length reqs + length input + 1 <= n)%nat ->
     observed rs = map PItem ms /\ fr_codec f' = RRHeader /\ fr_buf f' = [] /\ rest = []).
Proof. exact C01_reqrep_fragmentation_pf. Qed.
Print Assumptions C01_reqrep_fragmentation.

(** C01. Every message the API can build from an id below 2^32 and a payload below 4 GiB is encoded as
    such a frame. *)
Theorem C01_encoder_conforms :
  forall (id : N) (c : byte) (p : bytes), id < 2 ^ 32 -> blen p < 2 ^ 32 ->
  reqrep_frame id c p (rr_encode (rr_new id c p)).
Proof. exact C01_encoder_conforms_pf. Qed.
Print Assumptions C01_encoder_conforms.

Example C01_example :
  let input := [IoData [x02]; IoPending; IoData [x03; x00; x00]; IoData [x01; x04; x00; x00; x00; x02; x41];
                IoData [x42; x02; x00; x00; x00; x00; x00; x00; x00; x00; x00]] in
  Forall delivery input /\
  (exists frames, Forall2 (fun r f => reqrep_frame (fst (fst r)) (snd (fst r)) (snd r) f)
     [(260, x03, [x41; x42]); (0, x00, [])] frames /\ received input = concat frames).
Proof. exact C01_example_pf. Qed.

(** C02. The same for publish/subscribe frames: (compression type, topic, timestamp, seq, payload). *)
Theorem C02_pubsub_fragmentation :
  forall (msgs : list (byte * bytes * N * N * bytes)) (frames : list bytes) (input : list io) (n : nat),
  Forall2 (fun m f => let '(c, topic, ts, seq, p) := m in pubsub_frame c topic ts seq p f) msgs frames ->
  Forall delivery input ->
  received input = concat frames ->
  exists ms : list ps_msg,
    map (fun m => (ps_ctype m, ps_topic m, ps_timestamp m, ps_seq m, ps_payload m)) ms = msgs /\
    let '(rs, f', rest) := framed_polls ps_decode PSIo n (framed_new PSHeader) input in
    prefix_of (observed rs) (map PItem ms) /\
    ((length msgs + length input + 1 <= n)%nat ->
     observed rs = map PItem ms /\ fr_codec f' = PSHeader /\ fr_buf f' = [] /\ rest = []).
Proof. exact C02_pubsub_fragmentation_pf. Qed.
Print Assumptions C02_pubsub_fragmentation.

(** C02. Message::new accepts exactly the topics up to 65535 bytes and yields such a frame. *)
Theorem C02_encoder_conforms :
  forall (now seq : N) (topic payload : bytes) (c : byte),
  now < 2 ^ 64 -> seq < 2 ^ 32 -> blen payload < 2 ^ 32 ->
  (blen topic <= 65535 <-> exists m, ps_new now seq topic payload c = Some m) /\
  (forall m, ps_new now seq topic payload c = Some m -> pubsub_frame c topic now seq payload (ps_encode m)).
Proof. exact C02_encoder_conforms_pf. Qed.
Print Assumptions C02_encoder_conforms.

Example C02_example :
  let input := [IoData [x03; x00; x00]; IoData [x01; x41; x00; x00; x00; x00; x00; x00; x00; x07]; IoPending;
                IoData [x00; x00; x00; x05; x00; x00; x00; x02; x42; x43]] in
  Forall delivery input /\
  (exists frames, Forall2 (fun m f => let '(c, topic, ts, seq, p) := m in pubsub_frame c topic ts seq p f)
     [(x00, [x41], 7, 5, [x42; x43])] frames /\ received input = concat frames).
Proof. exact C02_example_pf. Qed.

(** C03 (the unchanged code violates it). A 3-byte token whose frame is split after 6 bytes, or after
    4 bytes, panics the server's decoder although the frame is well formed. *)
Theorem C03_auth_fragmentation_refuted :
  exists (token frame : bytes) (input : list io) (n : nat),
    auth_frame token frame /\ Forall delivery input /\ received input = frame /\
    observed (fst (fst (framed_polls au_decode AUIo n (framed_new au_server) input))) = [PPanic].
Proof. exact C03_auth_fragmentation_refuted_pf. Qed.
Print Assumptions C03_auth_fragmentation_refuted.

(** C03, what holds: exactly when no read ends at one of the fatal positions (4 bytes, or between
    max(5, k) and k + 4 bytes for a k-byte token) the server obtains exactly the token; otherwise it panics.
    Missing for the full property: absence of the panics. *)
Theorem C03_auth_fragmentation_partial :
  forall (token frame : bytes) (input : list io) (n : nat),
  auth_frame token frame -> Forall delivery input -> received input = frame ->
  (length input + 1 <= n)%nat ->
  observed (fst (fst (framed_polls au_decode AUIo n (framed_new au_server) input))) =
  if existsb (fatal_cut (blen token)) (cuts 0 input) then [PPanic] else [PItem (AuthM token)].
Proof. exact C03_auth_fragmentation_partial_pf. Qed.
Print Assumptions C03_auth_fragmentation_partial.

(** C03. The client's encoder emits such a frame for every token below 4 GiB. *)
Theorem C03_encoder_conforms :
  forall (token : bytes), blen token < 2 ^ 32 ->
  auth_frame token (fst (au_encode au_client (AuthM token))).
Proof. exact C03_encoder_conforms_pf. Qed.
Print Assumptions C03_encoder_conforms.

(** C03, the other direction of the handshake: the server's ack (01 01) or reject (01 00) is understood
    by the client however it is split, and the ack comes out exactly once. *)
Theorem C03_ack_fragmentation :
  forall (input : list io) (n : nat) (m : au_msg),
  Forall delivery input -> m = AckM \/ m = RejectM ->
  received input = fst (au_encode au_server m) -> (length input + 2 <= n)%nat ->
  observed (fst (fst (framed_polls au_decode AUIo n (framed_new au_client) input))) =
  match m with AckM => [PItem AckM] | _ => [PFail AURejected] end.
Proof. exact C03_ack_fragmentation_pf. Qed.
Print Assumptions C03_ack_fragmentation.

Example C03_example :
  let input := [IoData [x01; x00]; IoPending; IoData [x00; x00; x07; x41]; IoData [x42; x43; x44; x45; x46; x47]] in
  auth_frame [x41; x42; x43; x44; x45; x46; x47] (received input) /\ Forall delivery input /\
  existsb (fatal_cut 7) (cuts 0 input) = false.
Proof. exact C03_example_pf. Qed.

(** C04, request/reply: for every behaviour of the transport (data, end of file, errors, in any order),
    after any number of polls no panic has occurred and the bytes delivered so far are exactly the frames of
    the messages yielded, followed by the bytes the connection still holds ([held]: a header already taken
    out of the buffer, or nothing) and the bytes not yet read. *)
Theorem C04_reqrep_no_panic_no_loss :
  forall (input : list io) (n : nat),
  let '(rs, f', rest) := framed_polls rr_decode RRIo n (framed_new RRHeader) input in
  ~ In PPanic rs /\
  exists held : bytes,
    (held = [] \/ (exists h, fr_codec f' = RRPayload h) /\ length held = 10%nat) /\
    received input = concat (map rr_encode (items rs)) ++ held ++ fr_buf f' ++ received rest.
Proof. exact C04_reqrep_no_panic_no_loss_pf. Qed.
Print Assumptions C04_reqrep_no_panic_no_loss.

(** C04, publish/subscribe. *)
Theorem C04_pubsub_no_panic_no_loss :
  forall (input : list io) (n : nat),
  let '(rs, f', rest) := framed_polls ps_decode PSIo n (framed_new PSHeader) input in
  ~ In PPanic rs /\
  exists held : bytes,
    (held = [] \/ exists h, fr_codec f' = PSPayload (Some h) /\ blen held = 20 + psh_topic_size h) /\
    received input = concat (map ps_encode (items rs)) ++ held ++ fr_buf f' ++ received rest.
Proof. exact C04_pubsub_no_panic_no_loss_pf. Qed.
Print Assumptions C04_pubsub_no_panic_no_loss.

(** C04, authentication (violated): the server's decoder panics exactly on these buffers. *)
Theorem C04_auth_panics_partial :
  forall b : bytes,
  au_decode au_server b = DPanic <->
  exists r, b = x01 :: r /\
    (length r = 3%nat \/
     exists szb t, r = szb ++ t /\ length szb = 4%nat /\ be_value szb <= blen t + 5 /\ blen t < be_value szb).
Proof. exact C04_auth_panics_partial_pf. Qed.
Print Assumptions C04_auth_panics_partial.

(** C04, authentication: a 4-byte message from any client panics the server's authentication task. *)
Theorem C04_auth_no_panic_refuted :
  exists b : bytes, au_decode au_server b = DPanic.
Proof. exact C04_auth_no_panic_refuted_pf. Qed.
Print Assumptions C04_auth_no_panic_refuted.

(** C04, authentication: the client's side never panics. *)
Theorem C04_auth_client_no_panic :
  forall b : bytes, au_decode au_client b <> DPanic.
Proof. exact C04_auth_client_no_panic_pf. Qed.
Print Assumptions C04_auth_client_no_panic.

Example C04_example :
  let input := [IoData [x02; x00; x00; x00; x00; x01; x00; x00; x00; x01]; IoData [x58; x09]; IoErr; IoData []] in
  fst (fst (framed_polls rr_decode RRIo 4 (framed_new RRHeader) input)) =
    [PItem (rr_new 1 x00 [x58]); PFail (RRWireId x09); PEnd; PFail RRIo].
Proof. exact C04_example_pf. Qed.

(** C05, request/reply: after any frames, a foreign byte yields the wire-id error carrying that byte,
    whatever the chunking, whatever follows and however the stream ends; nothing of the foreign data is
    consumed, and no message is produced ever after, even if the connection is polled on. *)
Theorem C05_reqrep_foreign_rejected :
  forall (reqs : list (N * byte * bytes)) (frames : list bytes) (b : byte) (junk : bytes)
         (input : list io) (en : ending) (n : nat),
  Forall2 (fun r f => reqrep_frame (fst (fst r)) (snd (fst r)) (snd r) f) reqs frames ->
  b <> x02 -> Forall delivery input -> received input = concat frames ++ b :: junk ->
  let rs := fst (fst (framed_polls rr_decode RRIo n (framed_new RRHeader) (input ++ ending_io en))) in
  exists ms : list rr_msg,
    map (fun m => (rr_id m, rr_ctype m, rr_payload m)) ms = reqs /\
    prefix_of (observed rs) (map PItem ms ++ [PFail (RRWireId b)]) /\
    ((length reqs + length input + 1 <= n)%nat -> observed rs = map PItem ms ++ [PFail (RRWireId b)]) /\
    prefix_of (items rs) ms.
Proof. exact C05_reqrep_foreign_rejected_pf. Qed.
Print Assumptions C05_reqrep_foreign_rejected.

(** C05: the decoder itself consumes nothing, and rejects again with any further input appended. *)
Theorem C05_decoders_consume_nothing :
  forall (b : byte) (rest : bytes),
  (b <> x02 -> rr_decode RRHeader (b :: rest) = DErr (RRWireId b) RRHeader (b :: rest)) /\
  (b <> x03 -> ps_decode PSHeader (b :: rest) = DErr (PSWireId b) PSHeader (b :: rest)) /\
  (b <> x01 -> au_decode au_server (b :: rest) = DErr (AUWireId b) au_server (b :: rest)) /\
  (b <> x01 -> rest <> [] -> au_decode au_client (b :: rest) = DErr (AUWireId b) au_client (b :: rest)).
Proof. exact C05_decoders_consume_nothing_pf. Qed.
Print Assumptions C05_decoders_consume_nothing.

(** C05, publish/subscribe. *)
Theorem C05_pubsub_foreign_rejected :
  forall (msgs : list (byte * bytes * N * N * bytes)) (frames : list bytes) (b : byte) (junk : bytes)
         (input : list io) (en : ending) (n : nat),
  Forall2 (fun m f => let '(c, topic, ts, seq, p) := m in pubsub_frame c topic ts seq p f) msgs frames ->
  b <> x03 -> Forall delivery input -> received input = concat frames ++ b :: junk ->
  let rs := fst (fst (framed_polls ps_decode PSIo n (framed_new PSHeader) (input ++ ending_io en))) in
  exists ms : list ps_msg,
    map (fun m => (ps_ctype m, ps_topic m, ps_timestamp m, ps_seq m, ps_payload m)) ms = msgs /\
    prefix_of (observed rs) (map PItem ms ++ [PFail (PSWireId b)]) /\
    ((length msgs + length input + 1 <= n)%nat -> observed rs = map PItem ms ++ [PFail (PSWireId b)]) /\
    prefix_of (items rs) ms.
Proof. exact C05_pubsub_foreign_rejected_pf. Qed.
Print Assumptions C05_pubsub_foreign_rejected.

(** C06: for an arbitrary byte stream and any way it ends, what the user of a request/reply connection
    sees is the same for every chunking (and timing) of the stream. *)
Theorem C06_reqrep_chunking_independent :
  forall (stream : bytes) (en : ending), exists out : list (polled rr_msg rr_err),
  forall (input : list io) (n : nat),
  Forall delivery input -> received input = stream -> (length stream + length input + 1 <= n)%nat ->
  observed (fst (fst (framed_polls rr_decode RRIo n (framed_new RRHeader) (input ++ ending_io en)))) = out.
Proof. exact C06_reqrep_chunking_independent_pf. Qed.
Print Assumptions C06_reqrep_chunking_independent.

(** C06, publish/subscribe. *)
Theorem C06_pubsub_chunking_independent :
  forall (stream : bytes) (en : ending), exists out : list (polled ps_msg ps_err),
  forall (input : list io) (n : nat),
  Forall delivery input -> received input = stream -> (length stream + length input + 1 <= n)%nat ->
  observed (fst (fst (framed_polls ps_decode PSIo n (framed_new PSHeader) (input ++ ending_io en)))) = out.
Proof. exact C06_pubsub_chunking_independent_pf. Qed.
Print Assumptions C06_pubsub_chunking_independent.

Example C06_example :
  let i1 := [IoData [x02; x00; x00]; IoPending; IoData [x00; x00; x01; x00; x00; x00; x00; x05; x05]] in
  let i2 := [IoData [x02; x00; x00; x00; x00; x01; x00; x00; x00; x00; x05; x05]] in
  Forall delivery i1 /\ Forall delivery i2 /\ received i1 = received i2 /\
  observed (fst (fst (framed_polls rr_decode RRIo 9 (framed_new RRHeader) (i1 ++ ending_io Eof)))) =
    [PItem (rr_new 1 x00 []); PFail (RRWireId x05)].
Proof. exact C06_example_pf. Qed.

(** C07 (violated at 4 GiB): a message built from a payload of 2^32 bytes decodes to an empty payload,
    and the payload is then read as further frames. *)
Theorem C07_every_size_framed_refuted :
  exists payload : bytes, forall (id : N) (c : byte), id < 2 ^ 32 ->
  exists m, rr_decode RRHeader (rr_encode (rr_new id c payload)) = DMsg m RRHeader payload /\
            rr_payload m = [] /\ payload <> [].
Proof. exact C07_every_size_framed_refuted_pf. Qed.
Print Assumptions C07_every_size_framed_refuted.

(** C07, exact law: the receiver obtains the first (length mod 2^32) bytes; the rest of the payload is left
    in the stream and taken for the next frame. In particular sizes below 2^32 are framed correctly. *)
Theorem C07_every_size_framed_partial :
  forall (id : N) (c : byte) (payload more : bytes), id < 2 ^ 32 ->
  let k := N.to_nat (blen payload mod 2 ^ 32) in
  (exists m, rr_decode RRHeader (rr_encode (rr_new id c payload) ++ more) = DMsg m RRHeader (skipn k payload ++ more) /\
     rr_id m = id /\ rr_ctype m = c /\ rr_payload m = firstn k payload) /\
  (blen payload < 2 ^ 32 -> firstn k payload = payload /\ skipn k payload = []).
Proof. exact C07_every_size_framed_partial_pf. Qed.
Print Assumptions C07_every_size_framed_partial.

(** C07, publish/subscribe: the same law. *)
Theorem C07_pubsub_sizes_partial :
  forall (now seq : N) (topic payload : bytes) (c : byte) (m : ps_msg) (more : bytes),
  now < 2 ^ 64 -> seq < 2 ^ 32 -> ps_new now seq topic payload c = Some m ->
  let k := N.to_nat (blen payload mod 2 ^ 32) in
  (exists m', ps_decode PSHeader (ps_encode m ++ more) = DMsg m' PSHeader (skipn k payload ++ more) /\
     ps_topic m' = topic /\ ps_ctype m' = c /\ ps_timestamp m' = now /\ ps_seq m' = seq /\
     ps_payload m' = firstn k payload) /\
  (blen payload < 2 ^ 32 -> firstn k payload = payload /\ skipn k payload = []).
Proof. exact C07_pubsub_sizes_partial_pf. Qed.
Print Assumptions C07_pubsub_sizes_partial.

