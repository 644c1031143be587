(** GENERATED by tools/gen_props.py from Proofs/T_Net8.v: statements only. *)

(** Joint model of a request and a reply socket: every fair schedule comes to rest (C81). *)
From Coq Require Import List NArith.
From Verif Require Import Model.Base Model.Map Model.Framed Model.WireReqRep Model.WireAuth Model.Compression Model.Handshake Model.ReqDriver Model.RepDriver Model.Net Model.ReqRepNet
  Spec.CompressSpec Spec.AuthSpec Spec.ReqSpec Spec.RepSpec Spec.NetSpec Spec.NetSpec3 Spec.NetSpec4 Spec.NetSpec7.
Import ListNotations.
Open Scope N_scope.
From Verif Require Import Proofs.T_Net8.

(** C81: a request and a reply socket that are connected finish everything that is under way, under EVERY fair schedule:
    whatever happened before, in whatever order the client's driver, the reply socket's connection and the server application are
    run from now on, however the transport cuts the streams into pieces, and whatever the timing: if each of them gets a real
    turn again and again, only does its job, and the application answers every request it gets some time, then from some moment
    on nothing is left to do, for ever; until then nothing fails.  (The requests must fit into the application's queue.) *)
Theorem C81_every_fair_schedule_comes_to_rest :
  forall (o : ropts) (token : option bytes) (cco : option compressor) (max : option N) (min : N)
         (auth : option (bytes -> bool)) (sco : option compressor) (D : decompressors) (f : bytes -> bytes)
         (evs : list yev) (sched : nat -> yev) cid l,
  let run := y_run o token cco max min auth sco D in
  let at_ := fun n => run (then_follow evs sched n) in
  let y := run evs in
  (forall t, token = Some t -> blen t < 2 ^ 32) ->
  (forall cm, cco = Some cm -> inverse_of D cm) -> (forall cm, sco = Some cm -> inverse_of D cm) ->
  requests_fit cco evs -> replies_fit sco (sy_slog y) -> (forall q, reply_fits sco (f q)) ->
  connected y cid l -> queue_suffices y l -> fair f cid l at_ sched ->
  exists n0, forall n, (n0 <= n)%nat ->
    connected (at_ n) cid l /\ at_rest (at_ n) cid l /\
    (exists a, sy_clog (at_ n) = sy_clog y ++ a /\ Forall fine_client a) /\
    (exists b, sy_slog (at_ n) = sy_slog y ++ b /\ Forall (fine_server f (sy_slog (at_ n))) b) /\
    (forall l', l' <> l -> mget l' (sy_links (at_ n)) = mget l' (sy_links y)).
Proof. exact C81_every_fair_schedule_comes_to_rest_pf. Qed.
Print Assumptions C81_every_fair_schedule_comes_to_rest.

(** So every call without a result returns Ok with what the server application says to its payload, some time (unless its
    frame was lost before). *)
Theorem C81_every_call_is_answered :
  forall (o : ropts) (token : option bytes) (cco : option compressor) (max : option N) (min : N)
         (auth : option (bytes -> bool)) (sco : option compressor) (D : decompressors) (f : bytes -> bytes)
         (evs : list yev) (sched : nat -> yev) cid l,
  let run := y_run o token cco max min auth sco D in
  let at_ := fun n => run (then_follow evs sched n) in
  let y := run evs in
  (forall t, token = Some t -> blen t < 2 ^ 32) ->
  (forall cm, cco = Some cm -> inverse_of D cm) -> (forall cm, sco = Some cm -> inverse_of D cm) ->
  requests_fit cco evs -> replies_fit sco (sy_slog y) -> (forall q, reply_fits sco (f q)) ->
  connected y cid l -> queue_suffices y l -> fair f cid l at_ sched ->
  NoDup (map fst (asked evs)) -> answers_with f (sy_slog y) ->
  exists n0, forall n, (n0 <= n)%nat -> forall c p, In (c, p) (asked evs) -> ~ has_result y c ->
    In (Resolve c (OOk (f p))) (sy_clog (at_ n)) \/
    exists t m, In (Accept t c m) (sy_clog (at_ n)) /\ try_decompress D (rr_ctype m) (rr_payload m) = Some p /\ lost_before y cid l m.
Proof. exact C81_every_call_is_answered_pf. Qed.
Print Assumptions C81_every_call_is_answered.

(** There are such schedules, from every such state (for instance, to let everybody have his turn one after the other). *)
Theorem C81_there_are_fair_schedules :
  forall (o : ropts) (token : option bytes) (cco : option compressor) (max : option N) (min : N)
         (auth : option (bytes -> bool)) (sco : option compressor) (D : decompressors) (f : bytes -> bytes)
         (evs : list yev) cid l,
  let run := y_run o token cco max min auth sco D in
  let y := run evs in
  (forall t, token = Some t -> blen t < 2 ^ 32) ->
  (forall cm, cco = Some cm -> inverse_of D cm) -> (forall cm, sco = Some cm -> inverse_of D cm) ->
  requests_fit cco evs -> replies_fit sco (sy_slog y) -> (forall q, reply_fits sco (f q)) ->
  connected y cid l -> queue_suffices y l ->
  exists sched, fair f cid l (fun n => run (then_follow evs sched n)) sched.
Proof. exact C81_there_are_fair_schedules_pf. Qed.
Print Assumptions C81_there_are_fair_schedules.

(** The run of C53, when the client has connected and nothing else happened (see the example of C77 for the other
    hypotheses): the two calls fit into the queue, so there is a fair schedule, and under every fair schedule both calls are
    answered. *)
Example C81_example :
  forall D : decompressors,
  let evs := firstn 9 nx_evs in
  let run := y_run ex_opts (Some nx_tok) None None 0 (Some nx_auth) None D in
  queue_suffices (run evs) 0 /\
  (exists sched, fair nx_f 0 0 (fun n => run (then_follow evs sched n)) sched) /\
  forall sched, fair nx_f 0 0 (fun n => run (then_follow evs sched n)) sched ->
    exists n, In (Resolve 7 (OOk (nx_f [x41]))) (sy_clog (run (then_follow evs sched n))) /\
              In (Resolve 8 (OOk (nx_f [x42]))) (sy_clog (run (then_follow evs sched n))).
Proof. exact C81_example_pf. Qed.

