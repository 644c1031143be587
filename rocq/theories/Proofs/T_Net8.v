(** Joint model of a request and a reply socket: every fair schedule comes to rest (C81). *)
From Coq Require Import List NArith.
From Verif Require Import Model.Base Model.Map Model.Framed Model.WireReqRep Model.WireAuth Model.Compression Model.Handshake Model.ReqDriver Model.RepDriver Model.Net Model.ReqRepNet
  Spec.CompressSpec Spec.AuthSpec Spec.ReqSpec Spec.RepSpec Spec.NetSpec Spec.NetSpec3 Spec.NetSpec4 Spec.NetSpec7.
Import ListNotations.
Open Scope N_scope.
(*HEADEND*)
From Verif Require Import Proofs.ReqRepNetP10 Proofs.ReqRepNetP12 Proofs.ReqRepNetP16 Proofs.ReqRepNetP17 Proofs.ReqRepNetP18.
From Verif Require Proofs.T_Net5.
Local Open Scope N_scope.

Lemma load_ok y l : queue_suffices y l -> (load l y <= 1024)%nat.
Proof. intros (k & G & H). unfold load. rewrite G. exact H. Qed.

(*@prop C81: a request and a reply socket that are connected finish everything that is under way, under EVERY fair schedule:
    whatever happened before, in whatever order the client's driver, the reply socket's connection and the server application are
    run from now on, however the transport cuts the streams into pieces, and whatever the timing: if each of them gets a real
    turn again and again, only does its job, and the application answers every request it gets some time, then from some moment
    on nothing is left to do, for ever; until then nothing fails.  (The requests must fit into the application's queue.) *)
Lemma C81_every_fair_schedule_comes_to_rest_pf :
  forall (o : ropts) (token : option bytes) (cco : option compressor) (max : option N) (min : N)
         (auth : option (bytes -> bool)) (sco : option compressor) (D : decompressors) (f : bytes -> bytes)
         (evs : list yev) (sched : nat -> yev) cid l,
  let run := y_run o token cco max min auth sco D in
  let at_ := fun n => run (then_follow evs sched n) in
  let y := run evs in
  (forall t, token = Some t -> blen t < 2 ^ 32) ->
  (forall cm, cco = Some cm -> inverse_of D cm) -> (forall cm, sco = Some cm -> inverse_of D cm) ->
  requests_fit cco evs -> replies_fit sco (sy_slog y) -> (forall q, reply_fits sco (f q)) ->
  connected y cid l -> queue_suffices y l -> fair f cid l at_ sched ->
  exists n0, forall n, (n0 <= n)%nat ->
    connected (at_ n) cid l /\ at_rest (at_ n) cid l /\
    (exists a, sy_clog (at_ n) = sy_clog y ++ a /\ Forall fine_client a) /\
    (exists b, sy_slog (at_ n) = sy_slog y ++ b /\ Forall (fine_server f (sy_slog (at_ n))) b) /\
    (forall l', l' <> l -> mget l' (sy_links (at_ n)) = mget l' (sy_links y)).
Proof.
  intros o token cco max min auth sco D f evs sched cid l run at_ y T Ic Is Rq Ro Rf Cn Qs Fr.
  apply (conn_at_connected y cid l) in Cn. destruct Cn as (addr & Cn).
  destruct (comes_to_rest o token cco max min auth sco D T Ic Is f evs cid l sched Rq Ro Rf addr Cn (load_ok _ _ Qs) Fr) as (n0 & H).
  exists n0. intros n Le. destruct (H n Le) as [(_ & X) _]. exact X.
Qed.

(*@prop So every call without a result returns Ok with what the server application says to its payload, some time (unless its
    frame was lost before). *)
Lemma C81_every_call_is_answered_pf :
  forall (o : ropts) (token : option bytes) (cco : option compressor) (max : option N) (min : N)
         (auth : option (bytes -> bool)) (sco : option compressor) (D : decompressors) (f : bytes -> bytes)
         (evs : list yev) (sched : nat -> yev) cid l,
  let run := y_run o token cco max min auth sco D in
  let at_ := fun n => run (then_follow evs sched n) in
  let y := run evs in
  (forall t, token = Some t -> blen t < 2 ^ 32) ->
  (forall cm, cco = Some cm -> inverse_of D cm) -> (forall cm, sco = Some cm -> inverse_of D cm) ->
  requests_fit cco evs -> replies_fit sco (sy_slog y) -> (forall q, reply_fits sco (f q)) ->
  connected y cid l -> queue_suffices y l -> fair f cid l at_ sched ->
  NoDup (map fst (asked evs)) -> answers_with f (sy_slog y) ->
  exists n0, forall n, (n0 <= n)%nat -> forall c p, In (c, p) (asked evs) -> ~ has_result y c ->
    In (Resolve c (OOk (f p))) (sy_clog (at_ n)) \/
    exists t m, In (Accept t c m) (sy_clog (at_ n)) /\ try_decompress D (rr_ctype m) (rr_payload m) = Some p /\ lost_before y cid l m.
Proof.
  intros o token cco max min auth sco D f evs sched cid l run at_ y T Ic Is Rq Ro Rf Cn Qs Fr Nd An.
  apply (conn_at_connected y cid l) in Cn. destruct Cn as (addr & Cn).
  destruct (comes_to_rest o token cco max min auth sco D T Ic Is f evs cid l sched Rq Ro Rf addr Cn (load_ok _ _ Qs) Fr) as (n0 & H).
  exists n0. intros n Le c p Hc Hr. destruct (H n Le) as [S R]. eapply (answered_settled o token cco max min auth sco D T Ic Is f); eauto.
Qed.

(*@prop There are such schedules, from every such state (for instance, to let everybody have his turn one after the other). *)
Lemma C81_there_are_fair_schedules_pf :
  forall (o : ropts) (token : option bytes) (cco : option compressor) (max : option N) (min : N)
         (auth : option (bytes -> bool)) (sco : option compressor) (D : decompressors) (f : bytes -> bytes)
         (evs : list yev) cid l,
  let run := y_run o token cco max min auth sco D in
  let y := run evs in
  (forall t, token = Some t -> blen t < 2 ^ 32) ->
  (forall cm, cco = Some cm -> inverse_of D cm) -> (forall cm, sco = Some cm -> inverse_of D cm) ->
  requests_fit cco evs -> replies_fit sco (sy_slog y) -> (forall q, reply_fits sco (f q)) ->
  connected y cid l -> queue_suffices y l ->
  exists sched, fair f cid l (fun n => run (then_follow evs sched n)) sched.
Proof.
  intros o token cco max min auth sco D f evs cid l run y T Ic Is Rq Ro Rf Cn Qs.
  apply (conn_at_connected y cid l) in Cn. destruct Cn as (addr & Cn).
  eexists. apply (robin_fair o token cco max min auth sco D T Ic Is f evs cid l addr Rq Ro Rf Cn (load_ok _ _ Qs)).
Qed.

(*@example The run of C53, when the client has connected and nothing else happened (see the example of C77 for the other
    hypotheses): the two calls fit into the queue, so there is a fair schedule, and under every fair schedule both calls are
    answered. *)
Lemma C81_example_pf :
  forall D : decompressors,
  let evs := firstn 9 nx_evs in
  let run := y_run ex_opts (Some nx_tok) None None 0 (Some nx_auth) None D in
  queue_suffices (run evs) 0 /\
  (exists sched, fair nx_f 0 0 (fun n => run (then_follow evs sched n)) sched) /\
  forall sched, fair nx_f 0 0 (fun n => run (then_follow evs sched n)) sched ->
    exists n, In (Resolve 7 (OOk (nx_f [x41]))) (sy_clog (run (then_follow evs sched n))) /\
              In (Resolve 8 (OOk (nx_f [x42]))) (sy_clog (run (then_follow evs sched n))).
Proof.
  intros D. cbv zeta. destruct (T_Net5.C77_example_pf D) as (E1 & E2 & E3 & E4 & E5 & E6 & E7 & E8 & E9 & _ & E11).
  assert (T : forall t, Some nx_tok = Some t -> blen t < 2 ^ 32) by (intros t H; inversion H; reflexivity).
  assert (N0 : forall cm : compressor, None = Some cm -> inverse_of D cm) by discriminate.
  assert (Q : queue_suffices (y_run ex_opts (Some nx_tok) None None 0 (Some nx_auth) None D (firstn 9 nx_evs)) 0).
  { let v := eval vm_compute in (y_run ex_opts (Some nx_tok) None None 0 (Some nx_auth) None D (firstn 9 nx_evs)) in
      assert (E : y_run ex_opts (Some nx_tok) None None 0 (Some nx_auth) None D (firstn 9 nx_evs) = v) by (vm_compute; reflexivity).
    rewrite E. clear. eexists. split; [reflexivity|]. cbn. lia. }
  split; [exact Q|]. split; [eapply C81_there_are_fair_schedules_pf; eauto|].
  intros sched Fr. destruct (C81_every_call_is_answered_pf _ _ None None 0 _ None D nx_f (firstn 9 nx_evs) sched 0 0 T N0 N0 E1 E2 E3 E4 Q Fr E5 E6) as (n0 & H).
  exists n0. specialize (H n0 (le_n _)). rewrite E7 in H.
  split; [destruct (H 7 [x41]) as [X|(t & m & _ & _ & X)]|destruct (H 8 [x42]) as [X|(t & m & _ & _ & X)]]; try exact X; try (destruct (E11 _ X)); auto; cbn; auto.
Qed.
