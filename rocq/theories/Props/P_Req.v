(** GENERATED by tools/gen_props.py from Proofs/T_Req.v: statements only. *)

(** Request socket: C10 .. C16, C18, C21 (request side), C57 (request driver). *)
From Coq Require Import List NArith Permutation.
From Verif Require Import Model.Base Model.WireReqRep Model.Compression Model.Backoff Model.Map Model.ReqDriver Spec.ReqSpec.
Import ListNotations.
Open Scope N_scope.
From Verif Require Import Proofs.T_Req.

(** C10: in every history, if a call's result is Ok(x), then before that moment the call's frame was accepted under
    some id, no other call was given the same id afterwards, and the connection produced a response frame with exactly
    that id whose decompressed payload is x. *)
Theorem C10_response_matches_request :
  forall o co D evs s log c x before after,
  rd_run o co D rd_init evs = (s, log) -> log = before ++ Resolve c (OOk x) :: after ->
  exists response t req log1 log2,
    response_seen evs response /\ try_decompress D (rr_ctype response) (rr_payload response) = Some x /\
    before = log1 ++ Accept t c req :: log2 /\ rr_id req = rr_id response /\
    (forall t' c' req', In (Accept t' c' req') log2 -> rr_id req' <> rr_id req).
Proof. exact C10_response_matches_request_pf. Qed.
Print Assumptions C10_response_matches_request.

Example C10_example :
  forall D, snd (rd_run ex_opts None D rd_init (ex_hist ++ [EIter (ex_resp 1 [x42]); EIter (ex_resp 0 [x41])])) =
    [StartConnect; Connected; CheckedTimeouts (21 * ms);
     Accept (21 * ms) 7 (rr_new 0 x00 [x68; x69]); Handed (rr_new 0 x00 [x68; x69]) true; CheckedTimeouts (22 * ms);
     Accept (22 * ms) 8 (rr_new 1 x00 [x79; x6f]); Handed (rr_new 1 x00 [x79; x6f]) true;
     Resolve 8 (OOk [x42]); Resolve 7 (OOk [x41])].
Proof. exact C10_example_pf. Qed.

(** C11: in every history no request() call gets more than one result, and only calls that were made get one. *)
Theorem C11_at_most_one_result :
  forall o co D evs s log,
  rd_run o co D rd_init evs = (s, log) -> NoDup (map fst (issued evs)) ->
  NoDup (resolved log) /\ (forall c, In c (resolved log) -> In c (map fst (issued evs))).
Proof. exact C11_at_most_one_result_pf. Qed.
Print Assumptions C11_at_most_one_result.

(** C11: a response frame whose id belongs to no call that still waits for its result (unknown id, duplicate, late)
    changes nothing: no result, no frame, no statistics, same queues. *)
Theorem C11_stray_response_ignored :
  forall o co D evs s log m now,
  rd_run o co D rd_init evs = (s, log) -> NoDup (map fst (issued evs)) ->
  (forall t c req, In (Accept t c req) log -> rr_id req = rr_id m -> ~ unresolved log c) ->
  rd_on_message D now s m = (s, []).
Proof. exact C11_stray_response_ignored_pf. Qed.
Print Assumptions C11_stray_response_ignored.

Example C11_example :
  forall D, NoDup (map fst (issued ex_hist)) /\
  (* the response to call 7 arrives twice, then one with an unknown id *)
  resolved (snd (rd_run ex_opts None D rd_init
     (ex_hist ++ [EIter (ex_resp 0 [x41]); EIter (ex_resp 0 [x42]); EIter (ex_resp 99 [])]))) = [7].
Proof. exact C11_example_pf. Qed.

(** C12: when the timeout check runs at time [now] after any history, exactly the calls that were accepted more than
    `timeout` before [now] and have no result yet get one, namely Timeout; and of the calls waiting for a response exactly
    those are forgotten, everything else in the driver staying as it is. *)
Theorem C12_timeout_check_exact :
  forall o co D evs s log now s' new,
  rd_run o co D rd_init evs = (s, log) -> NoDup (map fst (issued evs)) ->
  rd_check_timeouts o now s = (s', new) ->
  (forall c r, In (Resolve c r) new <->
     r = OTimeout /\ exists t, outstanding log t c /\ ro_timeout o < now - t) /\
  (forall id, mget id (rd_pending s') =
     match mget id (rd_pending s) with
     | Some (t, c) => if ro_timeout o <? now - t then None else Some (t, c)
     | None => None
     end) /\
  rd_egress s' = rd_egress s /\ rd_cmds s' = rd_cmds s /\ rd_conn s' = rd_conn s /\ rd_id s' = rd_id s /\
  rd_tx s' = rd_tx s /\ rd_rx s' = rd_rx s /\ rd_rtts s' = rd_rtts s /\ rd_done s' = rd_done s.
Proof. exact C12_timeout_check_exact_pf. Qed.
Print Assumptions C12_timeout_check_exact.

Example C12_example :
  forall D, exists s log, rd_run ex_opts None D rd_init ex_hist = (s, log) /\ outstanding log (21 * ms) 7 /\ outstanding log (22 * ms) 8 /\
    snd (rd_check_timeouts ex_opts (5021 * ms) s) = [CheckedTimeouts (5021 * ms)] /\
    snd (rd_check_timeouts ex_opts (5021 * ms + 1) s) = [CheckedTimeouts (5021 * ms + 1); Resolve 7 OTimeout].
Proof. exact C12_example_pf. Qed.

(** C13, what holds: while a connection is active, nothing arrives and nothing can be sent, an iteration in which the
    check interval fires gives Timeout to every call that is past its deadline. *)
Theorem C13_timeout_while_connected_partial :
  forall o co D evs s log e t c s' new ctl,
  rd_run o co D rd_init evs = (s, log) ->
  rd_done s = false -> rd_conn s = RActive -> rd_task s = false ->
  e_next e = NxPending -> (e_ready e = false \/ rd_egress s = []) -> (0 < e_ticks e)%nat ->
  outstanding log t c -> ro_timeout o < e_now e - t ->
  rd_iter o co D e s = (s', new, ctl) ->
  In (Resolve c OTimeout) new.
Proof. exact C13_timeout_while_connected_partial_pf. Qed.
Print Assumptions C13_timeout_while_connected_partial.

Example C13_example :
  forall D, exists s log, rd_run ex_opts None D rd_init ex_hist = (s, log) /\ rd_done s = false /\ rd_conn s = RActive /\
    rd_task s = false /\ rd_egress s = [] /\ outstanding log (21 * ms) 7 /\ ro_timeout ex_opts < e_now (ex_env (6000 * ms)) - 21 * ms.
Proof. exact C13_example_pf. Qed.

(** C13 is violated while reconnecting: with a 5 s timeout, a request accepted at 21 ms still has no result at 600 s,
    although the driver was polled whenever one of its timers fired (the check interval being ready every time): the
    inactive branch returns before it looks at timeouts.  So it is for a request issued while disconnected. *)
Theorem C13_no_timeout_while_reconnecting_refuted :
  forall D, exists evs s log,
    rd_run ex_opts None D rd_init evs = (s, log) /\
    last evs EDrop = EIter (ex_env (600000 * ms)) /\
    outstanding log (21 * ms) 7 /\                                       (* accepted at 21 ms, no result *)
    In (EReq 9 []) evs /\ unresolved log 9 /\                            (* issued later, no result *)
    rd_done s = false /\ ro_timeout ex_opts = 5000 * ms.
Proof. exact C13_no_timeout_while_reconnecting_refuted_pf. Qed.
Print Assumptions C13_no_timeout_while_reconnecting_refuted.

(** C13 is violated under load as well: as long as each iteration finds an inbound message, the `continue` skips the
    timeout check, so after any number of iterations, at any time, an overdue call has no result. *)
Theorem C13_timeouts_starved_by_traffic_refuted :
  forall D (n : nat) (now : N), exists evs s log,
    evs = ex_hist ++ repeat (EIter (ex_in now (NxMsg (rr_new 99 x00 [])))) n /\
    rd_run ex_opts None D rd_init evs = (s, log) /\ outstanding log (21 * ms) 7.
Proof. exact C13_timeouts_starved_by_traffic_refuted_pf. Qed.
Print Assumptions C13_timeouts_starved_by_traffic_refuted.

(** C14: in every history the calls are accepted in the order in which they were made, each at most once (the accepted
    calls are the first ones made; while the socket is alive the others are all still queued); the k-th accepted frame
    carries id k mod 2^32 and the k-th call's payload; and the frames handed to connections, followed by those still
    waiting, are exactly the accepted ones in order - across any number of reconnections. *)
Theorem C14_requests_sent_in_order :
  forall o co D evs s log,
  rd_run o co D rd_init evs = (s, log) ->
  (exists acc rest,
     issued evs = acc ++ rd_cmds s ++ rest /\ (rd_done s = false -> rd_dropped s = false -> rest = []) /\
     map fst (accepted log) = map fst acc /\
     (forall k m, nth_error (map snd (accepted log)) k = Some m ->
        exists c p, nth_error acc k = Some (c, p) /\
                    m = req_into_wire (N.of_nat k mod 2 ^ 32) (req_outgoing (ro_min_compress o) co p))) /\
  handed log ++ rd_egress s = map snd (accepted log).
Proof. exact C14_requests_sent_in_order_pf. Qed.
Print Assumptions C14_requests_sent_in_order.

(** C14: a connection failure loses nothing that waits in the queue: neither waiting frames nor queued calls. *)
Theorem C14_reset_keeps_queues :
  forall o co D e s s' new ctl,
  rd_conn s = RActive -> rd_task s = false -> e_next e = NxErr ->
  rd_iter o co D e s = (s', new, ctl) ->
  rd_egress s' = rd_egress s /\ rd_cmds s' = rd_cmds s /\ rd_pending s' = rd_pending s /\ new = [].
Proof. exact C14_reset_keeps_queues_pf. Qed.
Print Assumptions C14_reset_keeps_queues.

Example C14_example :
  forall D, let r := rd_run ex_opts None D rd_init (ex_hist ++ [EIter (ex_in (31 * ms) NxErr); EReq 9 [x7a]]) in
  map rr_id (handed (snd r)) = [0; 1] /\ map fst (accepted (snd r)) = [7; 8] /\ rd_cmds (fst r) = [(9, [x7a])].
Proof. exact C14_example_pf. Qed.

(** C15, what holds: after a wire/transport error on an established connection (at any point of any history) the socket
    retries: it starts a connection attempt once its 20 ms back-off has passed, and when that succeeds the connection is
    active again with every queued request, waiting frame and outstanding call preserved. *)
Theorem C15_reconnects_after_error_partial :
  forall o co D evs s log e0 e1 e2 e3,
  rd_run o co D rd_init evs = (s, log) -> rd_done s = false -> rd_conn s = RActive ->
  e_next e0 = NxErr ->
  e_now e1 + 20000000 <= e_now e2 ->
  e_task e3 = Some true -> e_next e3 = NxPending -> e_ready e3 = false -> e_ticks e3 = 0%nat -> e_recv e3 = false ->
  exists s', rd_run o co D s [EIter e0; EIter e1; EIter e2; EIter e3] = (s', [StartConnect; Connected]) /\
    rd_conn s' = RActive /\ rd_done s' = false /\
    rd_egress s' = rd_egress s /\ rd_pending s' = rd_pending s /\ rd_cmds s' = rd_cmds s.
Proof. exact C15_reconnects_after_error_partial_pf. Qed.
Print Assumptions C15_reconnects_after_error_partial.

(** C15 is violated when the server closes the connection cleanly: in every reachable state with an active connection, EOF
    ends the driver for good.  No further connection attempt is ever made and every later request fails. *)
Theorem C15_eof_is_final_refuted :
  forall o co D evs s log e,
  rd_run o co D rd_init evs = (s, log) -> rd_done s = false -> rd_conn s = RActive -> e_next e = NxEof ->
  exists s' new, rd_step o co D s (EIter e) = (s', new) /\ rd_done s' = true /\
    forall later s'' log', rd_run o co D s' later = (s'', log') ->
      log' = map (fun q => Resolve (fst q) OClosed) (issued later).
Proof. exact C15_eof_is_final_refuted_pf. Qed.
Print Assumptions C15_eof_is_final_refuted.

Example C15_example :
  forall D, let r := rd_run ex_opts None D rd_init ex_hist in rd_done (fst r) = false /\ rd_conn (fst r) = RActive.
Proof. exact C15_example_pf. Qed.

(** C16: once the driver has ended, in whatever way, every request() call ever made has its result (nobody hangs). *)
Theorem C16_all_resolved_when_stopped :
  forall o co D evs s log,
  rd_run o co D rd_init evs = (s, log) -> rd_done s = true ->
  forall c, In c (map fst (issued evs)) -> In c (resolved log).
Proof. exact C16_all_resolved_when_stopped_pf. Qed.
Print Assumptions C16_all_resolved_when_stopped.

(** C16: and before that no call is lost: a call without a result is still queued or still waiting for its response. *)
Theorem C16_no_call_lost :
  forall o co D evs s log,
  rd_run o co D rd_init evs = (s, log) ->
  Permutation (map fst (issued evs)) (resolved log ++ map fst (rd_cmds s) ++ map (fun p => snd (snd p)) (rd_pending s)).
Proof. exact C16_no_call_lost_pf. Qed.
Print Assumptions C16_no_call_lost.

(** C16: when the driver ends in an iteration, the calls that had no result before get SocketClosed. *)
Theorem C16_stop_closes_outstanding :
  forall s c r, In (Resolve c r) (snd (rd_finish s)) -> r = OClosed.
Proof. exact C16_stop_closes_outstanding_pf. Qed.
Print Assumptions C16_stop_closes_outstanding.

Example C16_example :
  forall D, let r := rd_run ex_opts None D rd_init (ex_hist ++ [EReq 9 []; EIter (ex_in (31 * ms) NxEof); EReq 10 []]) in
  rd_done (fst r) = true /\ filter (fun x => match x with Resolve _ _ => true | _ => false end) (snd r) =
     [Resolve 7 OClosed; Resolve 8 OClosed; Resolve 9 OClosed; Resolve 10 OClosed].
Proof. exact C16_example_pf. Qed.

(** C18, what holds instead: whatever the options, without a successful connection at most 15 attempts are made. *)
Theorem C18_at_most_15_attempts_partial :
  forall o co D evs s log,
  rd_run o co D rd_init evs = (s, log) -> never_connected log -> (attempts log <= 15)%nat.
Proof. exact C18_at_most_15_attempts_partial_pf. Qed.
Print Assumptions C18_at_most_15_attempts_partial.

(** C18 is violated: for ALL options (in particular retry_attempts = None, documented as "retry indefinitely", or any
    number, and any backoff_duration) there is a run of failing connections, polled promptly, after which the driver has given up
    for good: 15 attempts, the first 20 ms after the start, the waits doubling from 20 ms. *)
Theorem C18_retry_options_ignored_refuted :
  forall o co D, exists evs,
    evs = map (fun k => EIter (ex_conn (20 * ms * (2 ^ N.of_nat k - 1)) false)) (seq 0 17) /\
    rd_done (fst (rd_run o co D rd_init evs)) = true /\ attempts (snd (rd_run o co D rd_init evs)) = 15%nat /\
    (forall later, attempts (snd (rd_run o co D (fst (rd_run o co D rd_init evs)) later)) = 0%nat).
Proof. exact C18_retry_options_ignored_refuted_pf. Qed.
Print Assumptions C18_retry_options_ignored_refuted.

(** C18: the options retry_attempts, backoff_duration and blocking_connect have no influence on any history. *)
Theorem C18_options_without_effect_refuted :
  forall t b b' bd bd' f r r' m co D evs s,
  rd_run (mkROpts t b bd f r m) co D s evs = rd_run (mkROpts t b' bd' f r' m) co D s evs.
Proof. exact C18_options_without_effect_refuted_pf. Qed.
Print Assumptions C18_options_without_effect_refuted.

Example C18_example :
  forall D, let r := rd_run ex_opts None D rd_init [EIter (ex_env 0); EIter (ex_env (20 * ms)); EIter (ex_conn (21 * ms) false); EIter (ex_env (60 * ms))] in
  never_connected (snd r) /\ attempts (snd r) = 2%nat.
Proof. exact C18_example_pf. Qed.

(** C21 (request socket) is violated: bytes_tx is too small by one byte (the wire id) for every frame.  Exact law: in every
    history, bytes_tx + number of frames taken by connections = number of bytes of their encodings (payloads below 4 GiB). *)
Theorem C21_request_bytes_tx_partial :
  forall o co D evs s log,
  rd_run o co D rd_init evs = (s, log) -> (forall m, In m (taken log) -> blen (rr_payload m) < 2 ^ 32) ->
  rd_tx s + N.of_nat (length (taken log)) = sum_len (map rr_encode (taken log)).
Proof. exact C21_request_bytes_tx_partial_pf. Qed.
Print Assumptions C21_request_bytes_tx_partial.

(** C21 (request socket): a witness of the violation. *)
Theorem C21_request_bytes_tx_refuted :
  forall D, let r := rd_run ex_opts None D rd_init ex_hist in
  rd_tx (fst r) = 22 /\ sum_len (map rr_encode (taken (snd r))) = 24.
Proof. exact C21_request_bytes_tx_refuted_pf. Qed.
Print Assumptions C21_request_bytes_tx_refuted.

(** C57 (request driver): if a poll is still looping after the iterations with answers [es], then their number is at most
    the number of inbound messages/errors found plus frames waiting plus twice the queued commands.  So, with finitely many
    inbound messages, every poll returns. *)
Theorem C57_request_poll_returns :
  forall o co D es s s' new,
  rd_poll o co D es s = (s', new, None) ->
  (length es <= inbound es + length (rd_egress s) + 2 * length (rd_cmds s))%nat.
Proof. exact C57_request_poll_returns_pf. Qed.
Print Assumptions C57_request_poll_returns.

Example C57_request_example :
  forall D, let s := fst (rd_run ex_opts None D rd_init (firstn 5 ex_hist)) in
  length (rd_egress s) = 1%nat /\ length (rd_cmds s) = 1%nat /\
  snd (rd_poll ex_opts None D [ex_env 0; ex_env 0; ex_env 0] s) = None /\
  snd (rd_poll ex_opts None D [ex_env 0; ex_env 0; ex_env 0; ex_env 0] s) = Some CPending.
Proof. exact C57_request_example_pf. Qed.

