(** GENERATED by tools/gen_props.py from Proofs/T_Write.v: statements only. *)

(** Properties of the write half of connections: C72-C75. *)
From Coq Require Import List NArith.
From Verif Require Import Model.Base Model.Framed Model.FramedWrite Model.WireReqRep Model.WirePubSub Model.Compression
  Model.Backoff Model.Trie Model.ReqDriver Model.RepDriver Model.PubDriver Model.SubDriver Model.Writers
  Spec.Stream Spec.WriteSpec.
Import ListNotations.
Open Scope N_scope.
From Verif Require Import Proofs.T_Write.

(** C72. However the owner of a connection mixes poll_ready, start_send, poll_flush and poll_close, and whatever the transport
    answers to the writes (a few bytes, not ready, errors): what it has taken, followed by what is still buffered, is exactly the
    encodings of the messages given to the connection, in order. *)
Theorem C72_partial_writes_lose_nothing :
  forall (M : Type) (encode : M -> bytes) (boundary : N) (ops : list (wop M)) (w : fw) (rs : list wres),
  fw_run encode boundary fw_new ops = (w, rs) ->
  fw_out w ++ fw_buf w = concat (map encode (messages_sent ops)).
Proof. exact C72_partial_writes_lose_nothing_pf. Qed.
Print Assumptions C72_partial_writes_lose_nothing.

(** C72. A flush (or close) that reports success has put everything given to the connection so far on the wire. *)
Theorem C72_flush_ok_means_written :
  forall (M : Type) (encode : M -> bytes) (boundary : N) (ops : list (wop M)) (op : wop M) (w : fw) (rs : list wres),
  fw_run encode boundary fw_new (ops ++ [op]) = (w, rs ++ [WReady]) -> flushes op ->
  fw_out w = concat (map encode (messages_sent ops)).
Proof. exact C72_flush_ok_means_written_pf. Qed.
Print Assumptions C72_flush_ok_means_written.

(** C72, end to end, request/reply. Messages with ids below 2^32 and payloads below 4 GiB go through a connection whose writes are
    partial, delayed or failing at any point, and whose reads are cut anywhere: the reader sees a prefix of the messages given to the
    connection, and after a successful flush all of them once everything has been read. *)
Theorem C72_reqrep_end_to_end :
  forall (boundary : N) (ops : list (wop rr_msg)) (w : fw) (rs : list wres) (input : list io) (n : nat),
  (forall m, In m (messages_sent ops) -> exists id c p, id < 2 ^ 32 /\ blen p < 2 ^ 32 /\ m = rr_new id c p) ->
  fw_run rr_encode boundary fw_new ops = (w, rs) ->
  Forall delivery input -> prefix_of (received input) (fw_out w) ->
  let seen := observed (fst (fst (framed_polls rr_decode RRIo n (framed_new RRHeader) input))) in
  prefix_of seen (map PItem (messages_sent ops)) /\
  (forall ops0 op rs0, ops = ops0 ++ [op] -> rs = rs0 ++ [WReady] -> flushes op -> received input = fw_out w ->
   (length (messages_sent ops) + length input + 1 <= n)%nat -> seen = map PItem (messages_sent ops)).
Proof. exact C72_reqrep_end_to_end_pf. Qed.
Print Assumptions C72_reqrep_end_to_end.

(** C72, end to end, publish/subscribe. *)
Theorem C72_pubsub_end_to_end :
  forall (boundary : N) (ops : list (wop ps_msg)) (w : fw) (rs : list wres) (input : list io) (n : nat),
  (forall m, In m (messages_sent ops) -> exists now seq topic payload c,
     now < 2 ^ 64 /\ seq < 2 ^ 32 /\ blen payload < 2 ^ 32 /\ ps_new now seq topic payload c = Some m) ->
  fw_run ps_encode boundary fw_new ops = (w, rs) ->
  Forall delivery input -> prefix_of (received input) (fw_out w) ->
  let seen := observed (fst (fst (framed_polls ps_decode PSIo n (framed_new PSHeader) input))) in
  prefix_of seen (map PItem (messages_sent ops)) /\
  (forall ops0 op rs0, ops = ops0 ++ [op] -> rs = rs0 ++ [WReady] -> flushes op -> received input = fw_out w ->
   (length (messages_sent ops) + length input + 1 <= n)%nat -> seen = map PItem (messages_sent ops)).
Proof. exact C72_pubsub_end_to_end_pf. Qed.
Print Assumptions C72_pubsub_end_to_end.

(** C72, the sockets. In every history of a request socket, what the transport took on the current connection, followed by what is
    buffered, is exactly the frames handed to that connection; and the history is one of the request driver, so everything
    proved about that driver (C10-C21, C60-C62, C64) holds of it. *)
Theorem C72_request_socket :
  forall (o : ropts) (co : option compressor) (D : decompressors) (boundary : N) (evs : list rw_event) (s : rd) (w : fw) (os : list out),
  rw_run o co D boundary rd_init fw_new evs = (s, w, os) ->
  fw_out w ++ fw_buf w = concat (map rr_encode (on_connection [] os)) /\
  exists devs : list req_event, length devs = length evs /\ rd_run o co D rd_init devs = (s, os).
Proof. exact C72_request_socket_pf. Qed.
Print Assumptions C72_request_socket.

(** C72, the sockets. Replies, published messages and subscription commands. *)
Theorem C72_other_sockets :
  (forall (min : N) (co : option compressor) (cid : N) (l : list pw_input) (p : peer) (w : fw) (os : list rout) (r : option pres),
    pw_run min co (new_peer cid) fw_new l = (p, w, os, r) ->
    fw_out w ++ fw_buf w = concat (map rr_encode (rep_frames os))) /\
  (forall (buf boundary cid tail : N) (l : list sw_input) (s : sess) (w : fw) (os : list qout) (r : option sres),
    sw_run buf boundary cid (sess_new tail) fw_new l = (s, w, os, r) ->
    fw_out w ++ fw_buf w = concat (map ps_encode (pub_frames os))) /\
  (forall (cid : N) (a : addr) (l : list yw_event) (x : sconn) (w : fw) (os : list uout),
    yw_run cid (sc_new a) fw_new l = (x, w, os) ->
    fw_out w ++ fw_buf w = concat (map ps_encode (sub_frames os))).
Proof. exact C72_other_sockets_pf. Qed.
Print Assumptions C72_other_sockets.

Example C72_example :
  let ops := [WoReady []; WoSend (rr_new 1 x00 [x41]); WoFlush [WrOk 3; WrPending]; WoReady [WrOk 2; WrErr]; WoSend (rr_new 2 x00 []); WoFlush [WrOk 5; WrOk 100; WrOk 0]] in
  exists w, fw_run rr_encode 4 fw_new ops = (w, [WReady; WReady; WPending; WFail; WReady; WReady]) /\ fw_buf w = [] /\ length (fw_out w) = 21%nat.
Proof. exact C72_example_pf. Qed.

(** C73. As long as the transport reports no write error, a request socket buffers at most the back-pressure boundary (minus one byte)
    plus one frame, in every history and for every boundary. *)
Theorem C73_request_buffer_partial :
  forall (o : ropts) (co : option compressor) (D : decompressors) (boundary : N) (evs : list rw_event) (s : rd) (w : fw) (os : list out) (big : N),
  rw_run o co D boundary rd_init fw_new evs = (s, w, os) ->
  (forall e a, In (RwIter e a) evs -> no_write_error a) ->
  (forall m, In (Handed m true) os -> blen (rr_encode m) <= big) ->
  blen (fw_buf w) <= (boundary - 1) + big.
Proof. exact C73_request_buffer_partial_pf. Qed.
Print Assumptions C73_request_buffer_partial.

(** C73, reply socket and publisher: the same. *)
Theorem C73_reply_publisher_buffer_partial :
  (forall (min : N) (co : option compressor) (cid : N) (l : list pw_input) (p : peer) (w : fw) (os : list rout) (r : option pres) (big : N),
    pw_run min co (new_peer cid) fw_new l = (p, w, os, r) ->
    (forall i, In i l -> no_write_error (pi_wans i)) -> (forall m, In m (rep_frames os) -> blen (rr_encode m) <= big) ->
    blen (fw_buf w) <= (default_boundary - 1) + big) /\
  (forall (buf boundary cid tail : N) (l : list sw_input) (s : sess) (w : fw) (os : list qout) (r : option sres) (big : N),
    sw_run buf boundary cid (sess_new tail) fw_new l = (s, w, os, r) ->
    (forall i, In i l -> no_write_error (si_wans i)) -> (forall m, In m (pub_frames os) -> blen (ps_encode m) <= big) ->
    blen (fw_buf w) <= (boundary - 1) + big).
Proof. exact C73_reply_publisher_buffer_partial_pf. Qed.
Print Assumptions C73_reply_publisher_buffer_partial.

(** C73, subscriber: whatever the transport answers. *)
Theorem C73_subscriber_buffer :
  forall (cid : N) (a : addr) (l : list yw_event) (x : sconn) (w : fw) (os : list uout) (big : N),
  yw_run cid (sc_new a) fw_new l = (x, w, os) ->
  (forall c now m, In (YwCmd c) l -> cmd_frame now c = Some m -> blen (ps_encode m) <= big) ->
  blen (fw_buf w) <= (default_boundary - 1) + big.
Proof. exact C73_subscriber_buffer_pf. Qed.
Print Assumptions C73_subscriber_buffer.

(** C73. Refuted when writes fail: poll_ready's error counts as ready (driver.rs 341-347, rep/driver.rs 269-272, session.rs 153-158),
    so with a connection whose every write fails the buffers of the request socket, the reply socket and the publisher grow without
    bound, by frames of 10 or 21 bytes, whatever the boundary. *)
Theorem C73_buffers_refuted :
  (forall (o : ropts) (D : decompressors) (boundary n : N), exists evs s w os,
    rw_run o None D boundary rd_init fw_new evs = (s, w, os) /\
    (forall e a, In (RwIter e a) evs -> all_writes_fail a) /\
    (forall m, In (Handed m true) os -> blen (rr_encode m) = 10) /\ n <= blen (fw_buf w)) /\
  (forall (min cid n : N), exists l p w os r,
    pw_run min None (new_peer cid) fw_new l = (p, w, os, r) /\
    (forall i, In i l -> all_writes_fail (pi_wans i)) /\
    (forall m, In m (rep_frames os) -> blen (rr_encode m) = 10) /\ n <= blen (fw_buf w)) /\
  (forall (buf boundary cid n : N), 0 < buf -> exists l s w os r,
    sw_run buf boundary cid (sess_new 0) fw_new l = (s, w, os, r) /\
    (forall i, In i l -> all_writes_fail (si_wans i)) /\
    (forall m, In m (pub_frames os) -> blen (ps_encode m) = 21) /\ n <= blen (fw_buf w)).
Proof. exact C73_buffers_refuted_pf. Qed.
Print Assumptions C73_buffers_refuted.

(** C74. "A connection on which every write fails is given up." Refuted for all sockets but the subscriber: however many iterations
    pass and requests are made (or answered, or messages published), the socket keeps the connection, having connected once; not
    one byte was written. *)
Theorem C74_given_up_refuted :
  (forall (o : ropts) (D : decompressors) (boundary : N) (n : nat), exists evs s w os,
    rw_run o None D boundary rd_init fw_new evs = (s, w, os) /\ (n <= length evs)%nat /\
    (forall e a, In (RwIter e a) evs -> all_writes_fail a) /\
    (n <= length (on_connection [] os))%nat /\ fw_out w = [] /\ rd_conn s = RActive /\ rd_done s = false /\
    (exists o1 o2, os = o1 ++ Connected :: o2 /\ ~ In Connected o1 /\ ~ In Connected o2)) /\
  (forall (min cid : N) (n : nat), exists l p w os r,
    pw_run min None (new_peer cid) fw_new l = (p, w, os, r) /\ (n <= length l)%nat /\
    (forall i, In i l -> all_writes_fail (pi_wans i)) /\
    (n <= length (rep_frames os))%nat /\ fw_out w = [] /\ r <> Some PNone) /\
  (forall (buf boundary cid : N) (n : nat), 0 < buf -> exists l s w os r,
    sw_run buf boundary cid (sess_new 0) fw_new l = (s, w, os, r) /\ (n <= length l)%nat /\
    (forall i, In i l -> all_writes_fail (si_wans i)) /\
    (n <= length (pub_frames os))%nat /\ fw_out w = [] /\ r <> Some SDone /\ r <> Some SCrash).
Proof. exact C74_given_up_refuted_pf. Qed.
Print Assumptions C74_given_up_refuted.

(** C74, subscriber. Refuted: one failed flush of a subscription frame is taken for a success (stream.rs 67, `is_ready`). Whatever the
    transport answers from then on (even if it recovers) and whatever is received, the frame is never written and the session goes
    on: the publisher never learns of the subscription. *)
Theorem C74_subscriber_refuted :
  forall (cid : N) (a : addr) (now : N) (topic : bytes) (frame : ps_msg) (later : list yw_event),
  ps_new_sub now topic = Some frame ->
  (forall ev, In ev later -> exists e fl se, ev = YwIter e fl se) ->
  let quiet := mkYenv false PnPending [] now in
  exists x os,
  yw_run cid (sc_new a) fw_new (YwCmd (SSub topic) :: YwIter quiet [] [] :: YwIter quiet [] [] :: YwIter quiet [WrErr] [] :: later)
    = (x, mkFw (ps_encode frame) [], os) /\
  sub_frames os = [frame] /\ sc_alive x = true.
Proof. exact C74_subscriber_refuted_pf. Qed.
Print Assumptions C74_subscriber_refuted.

(** C75. When a request socket's task goes to sleep with a connection, everything handed to that connection has been written to the
    transport, unless it is waiting for the flush interval or the transport did not complete the flush tried in this very iteration. *)
Theorem C75_request_flushed_before_sleep :
  forall (o : ropts) (co : option compressor) (D : decompressors) (boundary : N) (evs : list rw_event) (s : rd) (w : fw) (os : list out)
         (e : env) (a : wans) (s' : rd) (w' : fw) (os' : list out),
  rw_run o co D boundary rd_init fw_new evs = (s, w, os) ->
  rw_iter o co D boundary e a s w = (s', w', os', CPending) -> rd_conn s' = RActive ->
  fw_out w' = concat (map rr_encode (on_connection [] (os ++ os'))) \/
  (ro_flush_interval o <> None /\ e_flush_tick e = false) \/ snd (fst (fw_flush w (wa_flush a))) <> WReady.
Proof. exact C75_request_flushed_before_sleep_pf. Qed.
Print Assumptions C75_request_flushed_before_sleep.

(** C75, reply socket and publisher (for the publisher: unless it is waiting for its flush interval, [s_tick] = false). *)
Theorem C75_reply_publisher_flushed_before_sleep :
  (forall (min : N) (co : option compressor) (cid : N) (l : list pw_input) (i : pw_input) (p : peer) (w : fw) (os : list rout) (p' : peer) (w' : fw) (os' : list rout) (r : option pres),
    pw_run min co (new_peer cid) fw_new l = (p, w, os, r) ->
    pw_iter min co (pi_env i) (pi_wans i) (pi_os i) (pi_rid i) p w = (p', w', os', PPend) ->
    fw_out w' = concat (map rr_encode (rep_frames (os ++ os'))) \/ snd (fst (fw_flush w (wa_flush (pi_wans i)))) <> WReady) /\
  (forall (buf boundary cid tail : N) (l : list sw_input) (i : sw_input) (s : sess) (w : fw) (os : list qout) (s' : sess) (w' : fw) (os' : list qout) (r : option sres),
    sw_run buf boundary cid (sess_new tail) fw_new l = (s, w, os, r) ->
    sw_iter buf boundary cid (si_env i) (si_wans i) (si_hist i) (si_closed i) s w = (s', w', os', SPend) ->
    fw_out w' = concat (map ps_encode (pub_frames (os ++ os'))) \/ s_tick (si_env i) = false \/ snd (fst (fw_flush w (wa_flush (si_wans i)))) <> WReady).
Proof. exact C75_reply_publisher_flushed_before_sleep_pf. Qed.
Print Assumptions C75_reply_publisher_flushed_before_sleep.

(** C75, subscriber: only as long as no flush has failed (see C74). *)
Theorem C75_subscriber_flushed_before_sleep_partial :
  forall (cid : N) (a : addr) (l : list yw_event) (x : sconn) (w : fw) (os : list uout) (e : yenv) (fl : list wr) (se : list (list wr)) (x' : sconn) (w' : fw) (os' : list uout),
  yw_run cid (sc_new a) fw_new l = (x, w, os) ->
  (forall e fl se b, In (YwIter e fl se) l -> In b fl -> ~ write_error b) ->
  yw_iter cid e fl se x w = (x', w', os', SPend) ->
  fw_out w' = concat (map ps_encode (sub_frames (os ++ os'))) \/ snd (fst (fw_flush w fl)) <> WReady.
Proof. exact C75_subscriber_flushed_before_sleep_partial_pf. Qed.
Print Assumptions C75_subscriber_flushed_before_sleep_partial.

Example C75_example :
  let evs := [RwIter wx_idle wx_ok; RwIter wx_later wx_ok; RwIter wx_connected wx_ok; RwReq 1 [x41]; RwIter wx_idle wx_ok; RwIter wx_idle wx_ok] in
  exists s w os s' w',
  rw_run wx_opts None wx_dec 8192 rd_init fw_new evs = (s, w, os) /\ length (fw_buf w) = 11%nat /\
  rw_iter wx_opts None wx_dec 8192 wx_idle wx_ok s w = (s', w', [], CPending) /\ rd_conn s' = RActive /\
  length (fw_out w') = 11%nat.
Proof. exact C75_example_pf. Qed.

