(** GENERATED by tools/gen_props.py from Proofs/T_Req2.v: statements only. *)

(** More properties of the request socket: C60 (promptness), C61 (statistics), C62 (one attempt at a time). *)
From Coq Require Import List NArith.
From Verif Require Import Model.Base Model.Map Model.WireReqRep Model.Compression Model.Backoff Model.ReqDriver
  Spec.ReqSpec.
Import ListNotations.
Open Scope N_scope.
From Verif Require Import Proofs.T_Req2.

(** C60: whenever (after any history) a poll of the background task returns Pending with an established
    connection that accepts data, every request() call made so far has been turned into a frame and every frame
    has been handed to a connection: nothing sits in a queue while the task sleeps. *)
Theorem C60_no_request_left_behind :
  forall o co D evs s log es s' new,
  rd_run o co D rd_init evs = (s, log) -> rd_done s = false -> rd_dropped s = false ->
  rd_poll o co D es s = (s', new, Some CPending) ->
  rd_conn s' = RActive -> (forall e, In e es -> e_ready e = true /\ e_recv e = true) ->
  map fst (accepted (log ++ new)) = map fst (issued evs) /\
  handed (log ++ new) = map snd (accepted (log ++ new)).
Proof. exact C60_no_request_left_behind_pf. Qed.
Print Assumptions C60_no_request_left_behind.

Example C60_example :
  forall D, let s := fst (rd_run ex_opts None D rd_init (firstn 5 ex_hist)) in
  let '(s', new, r) := rd_poll ex_opts None D [ex_env 0; ex_env 0; ex_env 0; ex_env 0] s in
  r = Some CPending /\ rd_conn s' = RActive /\ length (rd_cmds s) = 1%nat /\ length (rd_egress s) = 1%nat /\ length (handed new) = 2%nat.
Proof. exact C60_example_pf. Qed.

(** C61: after every history the receive statistics are exactly about the calls that got a response: each such
    call corresponds to one accepted frame (accepted at time t), one response with the same id (arrived at time
    a), whose decompressed payload is the result; one round-trip time, (a - t) in microseconds, was recorded for
    each, in order; and bytes_rx is the total size of these responses on the wire minus one byte (the wire id)
    each, for well-formed responses.  Errors, timeouts and stray responses leave no trace. *)
Theorem C61_receive_statistics_partial :
  forall o co D evs s log,
  rd_run o co D rd_init evs = (s, log) ->
  exists hits : list (N * N * rr_msg),
    Forall2 (fun c h => let '(t, a, m) := h in
               (exists req, In (Accept t c req) log /\ rr_id req = rr_id m) /\
               (exists e, In (EIter e) evs /\ e_now e = a /\ e_next e = NxMsg m) /\
               (exists x, In (Resolve c (OOk x)) log /\ try_decompress D (rr_ctype m) (rr_payload m) = Some x))
      (answered log) hits /\
    rd_rtts s = map (fun h => (snd (fst h) - fst (fst h)) / 1000) hits /\
    ((forall h, In h hits -> rr_payload_size (snd h) = blen (rr_payload (snd h))) ->
     rd_rx s + N.of_nat (length hits) = sum_len (map (fun h => rr_encode (snd h)) hits)).
Proof. exact C61_receive_statistics_partial_pf. Qed.
Print Assumptions C61_receive_statistics_partial.

(** C61 (violated for bytes): bytes_rx misses one byte per response: 11 counted, 12 on the wire. *)
Theorem C61_receive_statistics_refuted :
  forall D, let r := rd_run ex_opts None D rd_init (ex_hist ++ [EIter (ex_resp 0 [x41; x42])]) in
  answered (snd r) = [7] /\ rd_rx (fst r) = 11 /\ rd_rtts (fst r) = [9000] /\
  blen (rr_encode (rr_new 0 x00 [x41; x42])) = 12.
Proof. exact C61_receive_statistics_refuted_pf. Qed.
Print Assumptions C61_receive_statistics_refuted.

(** C62: in every history there is at most one connection attempt in flight: between two attempts the first one has
    succeeded or failed. *)
Theorem C62_one_attempt_at_a_time :
  forall o co D evs s log l1 l2 l3,
  rd_run o co D rd_init evs = (s, log) ->
  log = l1 ++ StartConnect :: l2 ++ StartConnect :: l3 ->
  In Connected l2 \/ In ConnectFailed l2.
Proof. exact C62_one_attempt_at_a_time_pf. Qed.
Print Assumptions C62_one_attempt_at_a_time.

Example C62_example :
  forall D, snd (rd_run ex_opts None D rd_init
     [EIter (ex_env 0); EIter (ex_env (20 * ms)); EIter (ex_env (60 * ms)); EIter (ex_conn (61 * ms) false); EIter (ex_env (140 * ms))]) =
  [StartConnect; ConnectFailed; StartConnect].
Proof. exact C62_example_pf. Qed.

(** C83 (request): in every history in which the application dropped the socket and the connection is up and stays healthy - the
    server may go on sending responses - the task ends after as many iterations as it has frames and calls left to send, and by
    then every waiting frame, and every call still in the channel, was handed to the connection, in this order. *)
Theorem C83_request_ends :
  forall o co D evs s log es s' new,
  rd_run o co D rd_init evs = (s, log) -> In EDrop evs -> rd_conn s = RActive -> rd_done s = false ->
  Forall link_up es -> (length (rd_egress s) + 2 * length (rd_cmds s) + 1 <= quiet_iters es)%nat ->
  rd_run o co D s (map EIter es) = (s', new) ->
  rd_done s' = true /\ taken new = rd_egress s ++ map snd (accepted new) /\ map fst (accepted new) = map fst (rd_cmds s).
Proof. exact C83_request_ends_pf. Qed.
Print Assumptions C83_request_ends.

(** C83 (request), refuted while the connection is down: until a new connection is up, the task behaves - whatever happens -
    exactly as if the socket had not been dropped: it goes on waiting and dialling the server.  The connection it finally
    makes is used to send the waiting frames only. *)
Theorem C83_request_disconnected_refuted :
  (forall o co D s es s1 new1 s2 new2,
   (exists b, rd_conn s = RInactive b) -> Forall (fun e => e_task e <> Some true) es ->
   rd_run o co D s (EDrop :: map EIter es) = (s1, new1) -> rd_run o co D s (map EIter es) = (s2, new2) -> new1 = new2) /\
  (forall D, exists evs1 evs2 s1 s2 log1 log2,
   rd_run ex_opts None D rd_init evs1 = (s1, log1) /\ In EDrop evs1 /\ rd_run ex_opts None D s1 evs2 = (s2, log2) /\
   attempts log2 = 2%nat /\ rd_done s2 = false).
Proof. exact C83_request_disconnected_refuted_pf. Qed.
Print Assumptions C83_request_disconnected_refuted.

(** Two calls are waiting when the socket is dropped; one response comes in meanwhile. *)
Example C83_request_example :
  forall D, let r := rd_run ex_opts None D rd_init ([EIter (ex_env 0); EIter (ex_env (20 * ms)); EReq 7 [x68; x69]; EReq 8 [x79; x6f]; EIter (ex_conn (21 * ms) true); EDrop]) in
  let es := [ex_env (22 * ms); ex_resp 3 [x00]; ex_env (22 * ms); ex_env (22 * ms); ex_env (22 * ms)] in
  let q := rd_run ex_opts None D (fst r) (map EIter es) in
  rd_conn (fst r) = RActive /\ rd_done (fst r) = false /\ Forall link_up es /\
  (length (rd_egress (fst r)) + 2 * length (rd_cmds (fst r)) + 1 <= quiet_iters es)%nat /\
  rd_done (fst q) = true /\ length (taken (snd q)) = 2%nat.
Proof. exact C83_request_example_pf. Qed.

