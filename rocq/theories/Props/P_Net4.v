(** GENERATED by tools/gen_props.py from Proofs/T_Net4.v: statements only. *)

(** A request socket and a reply socket joined by connections: nothing is stuck (C76). *)
From Coq Require Import List NArith.
From Verif Require Import Model.Base Model.Map Model.Framed Model.WireReqRep Model.WireAuth Model.Compression Model.Handshake
  Model.ReqDriver Model.RepDriver Model.Net Model.ReqRepNet Spec.CompressSpec Spec.ReqSpec Spec.RepSpec Spec.NetSpec Spec.NetSpec3.
Import ListNotations.
Open Scope N_scope.
From Verif Require Import Proofs.T_Net4.

(** A connection at rest has nothing stuck in it: if everything written on it in either direction has been read and the server's
    session has nothing to write, then every call whose request was written on it has its result, or the server has its request
    and has not answered it (the application has it, or discarded it, or could not get it; or its answer could not be compressed):
    whatever happened before. *)
Theorem C76_nothing_stuck_on_a_connection :
  forall (o : ropts) (token : option bytes) (cco : option compressor) (max : option N) (min : N)
         (auth : option (bytes -> bool)) (sco : option compressor) (D : decompressors) (evs : list yev) cid l t c m,
  let y := y_run o token cco max min auth sco D evs in
  (forall t, token = Some t -> blen t < 2 ^ 32) -> blen (asked evs) < 2 ^ 32 -> frames_fit y ->
  client_connection y cid l -> drained y l -> session_idle (sy_s y) cid ->
  In (Accept t c m) (sy_clog y) -> written_on y l m ->
  has_result y c \/ exists rid, In (rid, m) (requests_on cid (sy_slog y)) /\ unanswered y cid rid.
Proof. exact C76_nothing_stuck_on_a_connection_pf. Qed.
Print Assumptions C76_nothing_stuck_on_a_connection.

(** If the client, too, has nothing to write, the same holds of every call ever made, except those whose request was lost with
    another connection (it was written on one, or writing it failed): the server has a request with exactly this payload. *)
Theorem C76_every_call_accounted_for :
  forall (o : ropts) (token : option bytes) (cco : option compressor) (max : option N) (min : N)
         (auth : option (bytes -> bool)) (sco : option compressor) (D : decompressors) (evs : list yev) cid l c p,
  let y := y_run o token cco max min auth sco D evs in
  (forall t, token = Some t -> blen t < 2 ^ 32) -> blen (asked evs) < 2 ^ 32 -> frames_fit y ->
  (forall cm, cco = Some cm -> inverse_of D cm) -> NoDup (map fst (asked evs)) ->
  client_connection y cid l -> drained y l -> session_idle (sy_s y) cid -> client_idle (sy_c y) ->
  In (c, p) (asked evs) ->
  has_result y c \/
  exists t m, In (Accept t c m) (sy_clog y) /\ try_decompress D (rr_ctype m) (rr_payload m) = Some p /\
    (In (Handed m false) (sy_clog y) \/ (exists l', l' <> l /\ written_on y l' m) \/
     exists rid, In (rid, m) (requests_on cid (sy_slog y)) /\ unanswered y cid rid).
Proof. exact C76_every_call_accounted_for_pf. Qed.
Print Assumptions C76_every_call_accounted_for.

(** So with one connection that never failed, and a server application that answered every request it was sent: when nothing is
    left to write or read, every call has its result. *)
Theorem C76_every_call_has_a_result :
  forall (o : ropts) (token : option bytes) (cco : option compressor) (max : option N) (min : N)
         (auth : option (bytes -> bool)) (sco : option compressor) (D : decompressors) (evs : list yev) cid l c p,
  let y := y_run o token cco max min auth sco D evs in
  (forall t, token = Some t -> blen t < 2 ^ 32) -> blen (asked evs) < 2 ^ 32 -> frames_fit y ->
  (forall cm, cco = Some cm -> inverse_of D cm) -> NoDup (map fst (asked evs)) ->
  client_connection y cid l -> (forall l' m, written_on y l' m -> l' = l) -> (forall m, ~ In (Handed m false) (sy_clog y)) ->
  drained y l -> session_idle (sy_s y) cid -> client_idle (sy_c y) ->
  (forall rid, ~ unanswered y cid rid) ->
  In (c, p) (asked evs) -> has_result y c.
Proof. exact C76_every_call_has_a_result_pf. Qed.
Print Assumptions C76_every_call_has_a_result.

(** The run of C53: while the server application has both requests, neither call has a result, and both connections' ends are at
    rest; at the end both calls have theirs, and the hypotheses of the last theorem hold. *)
Example C76_example :
  forall D : decompressors,
  (let y := y_run ex_opts (Some nx_tok) None None 0 (Some nx_auth) None D (firstn 17 nx_evs) in
   frames_fit y /\ client_connection y 0 0 /\ drained y 0 /\ session_idle (sy_s y) 0 /\ client_idle (sy_c y) /\
   (exists t m, In (Accept t 7 m) (sy_clog y) /\ written_on y 0 m) /\ In (7, [x41]) (asked (firstn 17 nx_evs)) /\
   ~ has_result y 7 /\ unanswered y 0 0) /\
  (let y := y_run ex_opts (Some nx_tok) None None 0 (Some nx_auth) None D nx_evs in
   frames_fit y /\ client_connection y 0 0 /\ (forall l' m, written_on y l' m -> l' = 0) /\ (forall m, ~ In (Handed m false) (sy_clog y)) /\
   drained y 0 /\ session_idle (sy_s y) 0 /\ client_idle (sy_c y) /\ (forall rid, ~ unanswered y 0 rid) /\
   NoDup (map fst (asked nx_evs)) /\ In (8, [x42]) (asked nx_evs) /\ has_result y 8).
Proof. exact C76_example_pf. Qed.

