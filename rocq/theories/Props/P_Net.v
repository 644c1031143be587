(** GENERATED by tools/gen_props.py from Proofs/T_Net.v: statements only. *)

(** A request socket and a reply socket joined by connections: C53. *)
From Coq Require Import List NArith Sorting.Sorted.
From Verif Require Import Model.Base Model.Map Model.Framed Model.WireReqRep Model.WireAuth Model.Compression Model.Handshake
  Model.ReqDriver Model.RepDriver Model.Net Model.ReqRepNet Spec.CompressSpec Spec.ReqSpec Spec.RepSpec Spec.NetSpec.
Import ListNotations.
Open Scope N_scope.
From Verif Require Import Proofs.T_Net.

(** Every call of request() that returns Ok(x) was made by the client application with some payload [p], and the server
    application received a request with exactly this payload and responded to it with [x]: for every sequence of at most
    2^32 - 1 calls, every interleaving of the two sides, every fragmentation of the byte streams, every number of broken
    connections and reconnects, every other client of the server, with or without authentication and compression on either
    side.  The token and the frames fit the 32-bit length fields, and the compressors are inverse to their decompressors. *)
Theorem C53_ok_is_the_servers_answer :
  forall (o : ropts) (token : option bytes) (cco : option compressor) (max : option N) (min : N)
         (auth : option (bytes -> bool)) (sco : option compressor) (D : decompressors) (evs : list yev) c x,
  let y := y_run o token cco max min auth sco D evs in
  (forall t, token = Some t -> blen t < 2 ^ 32) ->
  blen (asked evs) < 2 ^ 32 -> frames_fit y ->
  (forall cm, cco = Some cm -> inverse_of D cm) -> (forall cm, sco = Some cm -> inverse_of D cm) ->
  In (Resolve c (OOk x)) (sy_clog y) ->
  exists p addr rid,
    In (c, p) (asked evs) /\ In (RReceived (mkReq addr rid p)) (sy_slog y) /\ In (RResponded rid x true) (sy_slog y).
Proof. exact C53_ok_is_the_servers_answer_pf. Qed.
Print Assumptions C53_ok_is_the_servers_answer.

(** If the server application answers each request payload [q] with [f q], then each request(q) that returns Ok returns
    [f q]. *)
Theorem C53_ok_is_f_of_the_request :
  forall (f : bytes -> bytes) (o : ropts) (token : option bytes) (cco : option compressor) (max : option N) (min : N)
         (auth : option (bytes -> bool)) (sco : option compressor) (D : decompressors) (evs : list yev) c q x,
  let y := y_run o token cco max min auth sco D evs in
  (forall t, token = Some t -> blen t < 2 ^ 32) ->
  blen (asked evs) < 2 ^ 32 -> frames_fit y ->
  (forall cm, cco = Some cm -> inverse_of D cm) -> (forall cm, sco = Some cm -> inverse_of D cm) ->
  NoDup (map fst (asked evs)) -> answers_with f (sy_slog y) ->
  In (c, q) (asked evs) -> In (Resolve c (OOk x)) (sy_clog y) -> x = f q.
Proof. exact C53_ok_is_f_of_the_request_pf. Qed.
Print Assumptions C53_ok_is_f_of_the_request.

(** The server receives the requests of one connection in the order of the calls, those of an earlier connection are
    earlier calls than those of a later one, and each call's request at most once, on whatever connection. *)
Theorem C53_requests_in_order_at_most_once :
  forall (o : ropts) (token : option bytes) (cco : option compressor) (max : option N) (min : N)
         (auth : option (bytes -> bool)) (sco : option compressor) (D : decompressors) (evs : list yev),
  let y := y_run o token cco max min auth sco D evs in
  (forall t, token = Some t -> blen t < 2 ^ 32) ->
  blen (asked evs) < 2 ^ 32 -> frames_fit y ->
  (forall cid l, client_connection y cid l -> StronglySorted N.lt (map rr_id (map snd (requests_on cid (sy_slog y))))) /\
  (forall cid1 l1 cid2 l2 m1 m2, client_connection y cid1 l1 -> client_connection y cid2 l2 -> l1 < l2 ->
     In m1 (map snd (requests_on cid1 (sy_slog y))) -> In m2 (map snd (requests_on cid2 (sy_slog y))) -> rr_id m1 < rr_id m2) /\
  (forall cid1 l1 cid2 l2 r1 r2 m1 m2, client_connection y cid1 l1 -> client_connection y cid2 l2 ->
     In (r1, m1) (requests_on cid1 (sy_slog y)) -> In (r2, m2) (requests_on cid2 (sy_slog y)) -> rr_id m1 = rr_id m2 ->
     cid1 = cid2 /\ r1 = r2).
Proof. exact C53_requests_in_order_at_most_once_pf. Qed.
Print Assumptions C53_requests_in_order_at_most_once.

(** Each request the server receives from the client is one of the calls, with its payload: the frame with id [n] is call
    number [n]. *)
Theorem C53_requests_are_genuine :
  forall (o : ropts) (token : option bytes) (cco : option compressor) (max : option N) (min : N)
         (auth : option (bytes -> bool)) (sco : option compressor) (D : decompressors) (evs : list yev),
  let y := y_run o token cco max min auth sco D evs in
  (forall t, token = Some t -> blen t < 2 ^ 32) ->
  blen (asked evs) < 2 ^ 32 -> frames_fit y -> (forall cm, cco = Some cm -> inverse_of D cm) ->
  forall cid l rid m, client_connection y cid l -> In (rid, m) (requests_on cid (sy_slog y)) ->
  exists c p, nth_error (asked evs) (N.to_nat (rr_id m)) = Some (c, p) /\ try_decompress D (rr_ctype m) (rr_payload m) = Some p.
Proof. exact C53_requests_are_genuine_pf. Qed.
Print Assumptions C53_requests_are_genuine.

Example C53_example :
  forall D : decompressors,
  let y := y_run ex_opts (Some nx_tok) None None 0 (Some nx_auth) None D nx_evs in
  blen nx_tok < 2 ^ 32 /\ blen (asked nx_evs) < 2 ^ 32 /\ frames_fit y /\ NoDup (map fst (asked nx_evs)) /\
  answers_with nx_f (sy_slog y) /\
  In (Resolve 7 (OOk [x61; x61])) (sy_clog y) /\ In (Resolve 8 (OOk [x62; x62])) (sy_clog y) /\
  client_connection y 0 0 /\ map fst (requests_on 0 (sy_slog y)) = [0; 1].
Proof. exact C53_example_pf. Qed.

