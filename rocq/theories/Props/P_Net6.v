(** GENERATED by tools/gen_props.py from Proofs/T_Net6.v: statements only. *)

(** Joint model of a request and a reply socket: the way back to a connection (C78). *)
From Coq Require Import List NArith Sorting.Sorted.
From Verif Require Import Model.Base Model.Map Model.Framed Model.Backoff Model.WireReqRep Model.WireAuth Model.Compression Model.Handshake Model.ReqDriver Model.RepDriver Model.Net Model.ReqRepNet
  Spec.CompressSpec Spec.AuthSpec Spec.ReqSpec Spec.RepSpec Spec.NetSpec Spec.NetSpec3 Spec.NetSpec4 Spec.NetSpec5.
Import ListNotations.
Open Scope N_scope.
From Verif Require Import Proofs.T_Net6.

(** C78: whatever happened before, a request socket that has lost its connection (or never had one) and has a retry left, or an
    attempt under way, can get a new connection, if the server lets it in: within 8 steps, the last of which is at the
    latest when the back-off's timer says so (or 20 ms from now).  Nothing is lost on the way: calls, requests, responses and
    the server's other connections are as before. *)
Theorem C78_way_back :
  forall (o : ropts) (token : option bytes) (cco : option compressor) (max : option N) (min : N)
         (auth : option (bytes -> bool)) (sco : option compressor) (D : decompressors) (now addr : N) (evs : list yev) b,
  let run := y_run o token cco max min auth sco D in
  let y := run evs in
  (forall t, token = Some t -> blen t < 2 ^ 32) ->
  can_get_connection token y b -> let_in token auth -> has_room max (sy_s y) -> rp_dropped (sy_s y) = false ->
  mget addr (rp_peers (sy_s y)) = None ->
  exists more l, let y' := run (evs ++ more) in let cid := rp_next_cid (sy_s y) in
    (length more <= 8)%nat /\ Forall (reconnecting now (next_attempt b now) addr) more /\ Sorted N.le (client_times more) /\
    connected y' cid l /\ mget l (sy_links y) = None /\ as_before y y' addr /\
    (exists a, sy_clog y' = sy_clog y ++ a /\ Forall connecting a) /\
    (exists s, sy_slog y' = sy_slog y ++ s /\ Forall (taking_in cid addr) s).
Proof. exact C78_way_back_pf. Qed.
Print Assumptions C78_way_back.

(** So a broken connection costs only the requests that were written on it: if the server comes back and its application
    answers, every call without a result returns Ok with the application's answer, in a bounded number of steps, unless its
    request had been given to a connection before. *)
Theorem C78_unwritten_requests_survive :
  forall (o : ropts) (token : option bytes) (cco : option compressor) (max : option N) (min : N)
         (auth : option (bytes -> bool)) (sco : option compressor) (D : decompressors) (f : bytes -> bytes) (now addr : N) (evs : list yev) b,
  let run := y_run o token cco max min auth sco D in
  let y := run evs in
  (forall t, token = Some t -> blen t < 2 ^ 32) ->
  (forall cm, cco = Some cm -> inverse_of D cm) -> (forall cm, sco = Some cm -> inverse_of D cm) ->
  requests_fit cco evs -> replies_fit sco (sy_slog y) -> (forall q, reply_fits sco (f q)) ->
  NoDup (map fst (asked evs)) -> answers_with f (sy_slog y) ->
  can_get_connection token y b -> let_in token auth -> has_room max (sy_s y) -> rp_dropped (sy_s y) = false ->
  mget addr (rp_peers (sy_s y)) = None ->
  exists more, let y' := run (evs ++ more) in let late := next_attempt b now in
    Forall (fun ev => reconnecting now late addr ev \/ cooperative late ev) more /\ Sorted N.le (client_times more) /\
    (length more <= 8 + work_waiting y)%nat /\
    forall c p, In (c, p) (asked evs) -> ~ has_result y c ->
      In (Resolve c (OOk (f p))) (sy_clog y') \/ exists t m, In (Accept t c m) (sy_clog y) /\ frame_gone y m.
Proof. exact C78_unwritten_requests_survive_pf. Qed.
Print Assumptions C78_unwritten_requests_survive.

(** The run of C53: when the client has connected, reading fails.  Both calls survive: one is in the queue, one was not looked at. *)
Example C78_example :
  forall D : decompressors,
  let evs := firstn 9 nx_evs ++ [nx_cl (22 * ms) [] [IoErr]] in
  let y := y_run ex_opts (Some nx_tok) None (Some 2) 0 (Some nx_auth) None D evs in
  requests_fit None evs /\ replies_fit None (sy_slog y) /\ (forall q, reply_fits None (nx_f q)) /\
  NoDup (map fst (asked evs)) /\ answers_with nx_f (sy_slog y) /\ asked evs = [(7, [x41]); (8, [x42])] /\
  can_get_connection (Some nx_tok) y reconnect_backoff /\ let_in (Some nx_tok) (Some nx_auth) /\ has_room (Some 2) (sy_s y) /\
  rp_dropped (sy_s y) = false /\ mget 6 (rp_peers (sy_s y)) = None /\ work_waiting y = 15%nat /\
  ~ has_result y 7 /\ ~ has_result y 8 /\ (forall m, ~ frame_gone y m).
Proof. exact C78_example_pf. Qed.

