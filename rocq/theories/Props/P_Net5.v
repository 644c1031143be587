(** GENERATED by tools/gen_props.py from Proofs/T_Net5.v: statements only. *)

(** Joint model of a request and a reply socket: there is always a way on (C77). *)
From Coq Require Import List NArith.
From Verif Require Import Model.Base Model.Map Model.Framed Model.WireReqRep Model.WireAuth Model.Compression Model.Handshake Model.ReqDriver Model.RepDriver Model.Net Model.ReqRepNet
  Spec.CompressSpec Spec.AuthSpec Spec.ReqSpec Spec.RepSpec Spec.NetSpec Spec.NetSpec3 Spec.NetSpec4.
Import ListNotations.
Open Scope N_scope.
From Verif Require Import Proofs.T_Net5.

(** C77: whatever happened before, as long as the two sockets have a working connection there is a way to finish everything
    that is under way: if from now on the transport takes frames and delivers data, and the server application takes requests and
    answers them, then within a bounded number of steps nothing is left to do at either end, and on the way nothing fails:
    the client's driver only accepts calls, writes frames and returns Ok; the server only reads, hands over, answers and writes. *)
Theorem C77_way_to_rest :
  forall (o : ropts) (token : option bytes) (cco : option compressor) (max : option N) (min : N)
         (auth : option (bytes -> bool)) (sco : option compressor) (D : decompressors) (f : bytes -> bytes) (now : N)
         (evs : list yev) cid l,
  let run := y_run o token cco max min auth sco D in
  let y := run evs in
  (forall t, token = Some t -> blen t < 2 ^ 32) ->
  (forall cm, cco = Some cm -> inverse_of D cm) -> (forall cm, sco = Some cm -> inverse_of D cm) ->
  requests_fit cco evs -> replies_fit sco (sy_slog y) -> (forall q, reply_fits sco (f q)) ->
  connected y cid l ->
  exists more, let y' := run (evs ++ more) in
    Forall (cooperative now) more /\ (length more <= work_left y cid l)%nat /\
    connected y' cid l /\ at_rest y' cid l /\
    (exists a, sy_clog y' = sy_clog y ++ a /\ Forall fine_client a) /\
    (exists b, sy_slog y' = sy_slog y ++ b /\ Forall (fine_server f (sy_slog y')) b) /\
    (forall l', l' <> l -> mget l' (sy_links y') = mget l' (sy_links y)).
Proof. exact C77_way_to_rest_pf. Qed.
Print Assumptions C77_way_to_rest.

(** So every call that has no result yet can still get its answer, and will if everybody does his job: unless its frame
    was lost before, the call returns Ok with what the server application says to its payload. *)
Theorem C77_every_call_gets_its_answer :
  forall (o : ropts) (token : option bytes) (cco : option compressor) (max : option N) (min : N)
         (auth : option (bytes -> bool)) (sco : option compressor) (D : decompressors) (f : bytes -> bytes) (now : N)
         (evs : list yev) cid l,
  let run := y_run o token cco max min auth sco D in
  let y := run evs in
  (forall t, token = Some t -> blen t < 2 ^ 32) ->
  (forall cm, cco = Some cm -> inverse_of D cm) -> (forall cm, sco = Some cm -> inverse_of D cm) ->
  requests_fit cco evs -> replies_fit sco (sy_slog y) -> (forall q, reply_fits sco (f q)) ->
  connected y cid l -> NoDup (map fst (asked evs)) -> answers_with f (sy_slog y) ->
  exists more, let y' := run (evs ++ more) in
    Forall (cooperative now) more /\ (length more <= work_left y cid l)%nat /\
    forall c p, In (c, p) (asked evs) -> ~ has_result y c ->
      In (Resolve c (OOk (f p))) (sy_clog y') \/
      exists t m, In (Accept t c m) (sy_clog y') /\ try_decompress D (rr_ctype m) (rr_payload m) = Some p /\ lost_before y cid l m.
Proof. exact C77_every_call_gets_its_answer_pf. Qed.
Print Assumptions C77_every_call_gets_its_answer.

(** The run of C53, when the client has connected and nothing else happened: both calls wait, 15 steps are left (one call has been accepted). *)
Example C77_example :
  forall D : decompressors,
  let evs := firstn 9 nx_evs in
  let y := y_run ex_opts (Some nx_tok) None None 0 (Some nx_auth) None D evs in
  requests_fit None evs /\ replies_fit None (sy_slog y) /\ (forall q, reply_fits None (nx_f q)) /\ connected y 0 0 /\
  NoDup (map fst (asked evs)) /\ answers_with nx_f (sy_slog y) /\ asked evs = [(7, [x41]); (8, [x42])] /\
  ~ has_result y 7 /\ ~ has_result y 8 /\ work_left y 0 0 = 15%nat /\ (forall m, ~ lost_before y 0 0 m).
Proof. exact C77_example_pf. Qed.

