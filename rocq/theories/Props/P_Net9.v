(** GENERATED by tools/gen_props.py from Proofs/T_Net9.v: statements only. *)

(** Joint model of a subscriber and a publisher socket: every fair schedule comes to rest, and everything arrives (C82). *)
From Coq Require Import List NArith Sorting.Sorted Init.Byte.
From Verif Require Import Model.Base Model.Map Model.Framed Model.WirePubSub Model.WireAuth Model.Compression Model.Handshake Model.JoinMap Model.Backoff Model.Trie Model.PubDriver Model.SubDriver Model.Net Model.PubSubNet
  Spec.CompressSpec Spec.Utf8Spec Spec.Topics Spec.PubSpec Spec.SubSpec Spec.NetSpec2 Spec.NetSpec6 Spec.NetSpec8.
Import ListNotations.
Open Scope N_scope.
From Verif Require Import Proofs.T_Net9.

(** C82: a subscriber and a publisher that are in touch finish everything that is under way, under EVERY fair schedule: whatever
    happened before, in whatever order the subscriber's driver, its session, the publisher's session and the application
    that takes messages are run from now on, however the transport cuts the streams into pieces and however many
    frames it takes at a time, and whatever the timing: if each of them gets a real turn again and again and only does its part,
    then from some moment on nothing is left to do, for ever.  Meanwhile nothing is refused or lost, no connection ends and
    nothing else changes.  (The messages must fit into the subscriber's buffers.) *)
Theorem C82_every_fair_schedule_comes_to_rest :
  forall (token : option bytes) (ingress initial : N) (D : decompressors) (max : option N) (buf min : N)
         (auth : option (bytes -> bool)) (co : option compressor) (c d : N) (evs : list zev) (sched : nat -> zev),
  let run := z_run token ingress initial D max buf min auth co in
  let at_ := fun n => run (then_goes_on evs sched n) in
  (forall t, token = Some t -> blen t < 2 ^ 32) -> (forall cm, co = Some cm -> inverse_of D cm) ->
  Forall (input_fits co) evs -> in_touch (run evs) c d -> buffers_suffice ingress buf (run evs) c d -> fair_pubsub c d at_ sched ->
  exists n0, forall n, (n0 <= n)%nat -> in_touch (at_ n) c d /\ all_done (at_ n) c d /\ kept c d (run evs) (at_ n).
Proof. exact C82_every_fair_schedule_comes_to_rest_pf. Qed.
Print Assumptions C82_every_fair_schedule_comes_to_rest.

(** And then the application has obtained, in the order of publication, each once, exactly: the messages that were due to
    the connection already, and, of those that the publisher's session had not looked at, the ones its filter lets
    through -- except those that had already been pushed out of the queue of session_buffer_size messages. *)
Theorem C82_every_fair_schedule_delivers :
  forall (token : option bytes) (ingress initial : N) (D : decompressors) (max : option N) (buf min : N)
         (auth : option (bytes -> bool)) (co : option compressor) (c d : N) (evs : list zev) (sched : nat -> zev),
  let run := z_run token ingress initial D max buf min auth co in
  let z := run evs in
  let at_ := fun n => run (then_goes_on evs sched n) in
  (forall t, token = Some t -> blen t < 2 ^ 32) -> (forall cm, co = Some cm -> inverse_of D cm) ->
  Forall (input_fits co) evs -> in_touch z c d -> buffers_suffice ingress buf z c d -> fair_pubsub c d at_ sched ->
  (forall t p, In (t, p) (announced evs) -> utf8 t) -> all_published (z_slog z) -> nothing_refused c (z_clog z) ->
  exists n0, forall n, (n0 <= n)%nat -> exists places,
    StronglySorted N.lt places /\ Forall2 (fun i q => nth_error (announced evs) (N.to_nat i) = Some q) places (obtained c (z_clog (at_ n))) /\
    forall i, In i places <->
      due d (z_slog z) i \/
      (first_unread buf z d <= i /\
       exists t p, nth_error (announced evs) (N.to_nat i) = Some (t, p) /\ trie_contains (trie_run (ops_of d (z_slog z))) t = true).
Proof. exact C82_every_fair_schedule_delivers_pf. Qed.
Print Assumptions C82_every_fair_schedule_delivers.

(** There are such schedules, from every such state (for instance, to let everybody have his turn one after the other). *)
Theorem C82_there_are_fair_schedules :
  forall (token : option bytes) (ingress initial : N) (D : decompressors) (max : option N) (buf min : N)
         (auth : option (bytes -> bool)) (co : option compressor) (c d : N) (evs : list zev),
  let run := z_run token ingress initial D max buf min auth co in
  (forall t, token = Some t -> blen t < 2 ^ 32) -> (forall cm, co = Some cm -> inverse_of D cm) ->
  Forall (input_fits co) evs -> in_touch (run evs) c d -> buffers_suffice ingress buf (run evs) c d ->
  exists sched, fair_pubsub c d (fun n => run (then_goes_on evs sched n)) sched.
Proof. exact C82_there_are_fair_schedules_pf. Qed.
Print Assumptions C82_there_are_fair_schedules.

(** So messages published when subscriber and publisher are at rest, no more of them than the queues hold, are obtained by the
    application under every fair schedule: exactly those that the filter of the connection lets through, in the order of
    publication. *)
Theorem C82_published_at_rest_arrives :
  forall (token : option bytes) (ingress initial : N) (D : decompressors) (max : option N) (buf min : N)
         (auth : option (bytes -> bool)) (co : option compressor) (c d : N) (evs : list zev) (msgs : list (bytes * bytes)) (sched : nat -> zev),
  let run := z_run token ingress initial D max buf min auth co in
  let z := run evs in
  let at_ := fun n => run (then_goes_on (evs ++ zpubs msgs) sched n) in
  (forall t, token = Some t -> blen t < 2 ^ 32) -> (forall cm, co = Some cm -> inverse_of D cm) ->
  Forall (input_fits co) evs -> in_touch z c d -> all_done z c d ->
  (forall t p, In (t, p) (announced evs) -> utf8 t) -> all_published (z_slog z) -> nothing_refused c (z_clog z) ->
  blen msgs <= bcast_cap buf -> blen msgs <= 1024 -> blen msgs <= ingress ->
  (forall t p, In (t, p) msgs -> utf8 t /\ blen t < 2 ^ 16 /\ payload_fits co p /\ publish_outgoing min co p <> None) ->
  fair_pubsub c d at_ sched ->
  exists n0, forall n, (n0 <= n)%nat -> in_touch (at_ n) c d /\ all_done (at_ n) c d /\
    obtained c (z_clog (at_ n)) = obtained c (z_clog z) ++ filter (fun q => trie_contains (trie_run (ops_of d (z_slog z))) (fst q)) msgs.
Proof. exact C82_published_at_rest_arrives_pf. Qed.
Print Assumptions C82_published_at_rest_arrives.

(** And a new subscription takes effect under every fair schedule: once the driver has looked at the command, then from some
    moment on the publisher's filter for this connection is extended by the topic, for ever; and messages published then (any
    time later), no more than the queues hold, are obtained under every fair schedule: exactly those that the filter
    lets through. *)
Theorem C82_subscription_takes_effect :
  forall (token : option bytes) (ingress initial : N) (D : decompressors) (max : option N) (buf min : N)
         (auth : option (bytes -> bool)) (co : option compressor) (c d : N) (evs : list zev) (b : bool) (t : bytes) (sched : nat -> zev),
  let run := z_run token ingress initial D max buf min auth co in
  let z := run evs in
  let ops := ops_of d (z_slog z) in
  let evs1 := then_goes_on (evs ++ [ZApi (ApSub b t); ZCommand]) sched in
  let at1 := fun n => run (evs1 n) in
  (forall t, token = Some t -> blen t < 2 ^ 32) -> (forall cm, co = Some cm -> inverse_of D cm) ->
  Forall (input_fits co) evs -> in_touch z c d -> all_done z c d ->
  (forall t p, In (t, p) (announced evs) -> utf8 t) -> all_published (z_slog z) -> nothing_refused c (z_clog z) -> sb_cmdq (z_c z) = [] ->
  utf8 t -> blen t + 10 < 2 ^ 16 -> starts_with MSG t = false -> ~ In t (sb_topics (z_c z)) -> fair_pubsub c d at1 sched ->
  exists n0, forall n, (n0 <= n)%nat ->
    in_touch (at1 n) c d /\ all_done (at1 n) c d /\
    (exists o, z_clog (at1 n) = z_clog z ++ UApi (ApSub b t) AOk :: o) /\
    (forall u, In u (sb_topics (z_c (at1 n))) <-> u = t \/ In u (sb_topics (z_c z))) /\
    obtained c (z_clog (at1 n)) = obtained c (z_clog z) /\ ops_of d (z_slog (at1 n)) = ops ++ [TSub t] /\
    forall msgs sched2, blen msgs <= bcast_cap buf -> blen msgs <= 1024 -> blen msgs <= ingress ->
      (forall t p, In (t, p) msgs -> utf8 t /\ blen t < 2 ^ 16 /\ payload_fits co p /\ publish_outgoing min co p <> None) ->
      let at2 := fun m => run (then_goes_on (evs1 n ++ zpubs msgs) sched2 m) in
      let got := filter (fun q => trie_contains (trie_run (ops ++ [TSub t])) (fst q)) msgs in
      fair_pubsub c d at2 sched2 ->
      (exists m0, forall m, (m0 <= m)%nat -> obtained c (z_clog (at2 m)) = obtained c (z_clog z) ++ got) /\
      (subs_all gt_only_last (ops ++ [TSub t]) -> forall ts p, tokens_of t ts -> ~ In gt ts -> In (t, p) msgs -> In (t, p) got).
Proof. exact C82_subscription_takes_effect_pf. Qed.
Print Assumptions C82_subscription_takes_effect.

(** The run of C54, when three messages were published and none looked at (see the example of C79): they fit into the buffers,
    so there is a fair schedule, and under every fair schedule the two messages that the filter lets through are obtained. *)
Example C82_example :
  let run := z_run (Some zx_tok) 4 1000 zx_D None 8 0 (Some zx_auth) (Some zx_co) in
  let evs := firstn 17 zx_evs in
  in_touch (run evs) 0 0 /\ buffers_suffice 4 8 (run evs) 0 0 /\ still_to_come 8 (run evs) 0 0 = 3%nat /\
  (exists sched, fair_pubsub 0 0 (fun n => run (then_goes_on evs sched n)) sched) /\
  forall sched, fair_pubsub 0 0 (fun n => run (then_goes_on evs sched n)) sched ->
    exists n, obtained 0 (z_clog (run (then_goes_on evs sched n))) = [(zx_ab, [x01]); (zx_cb, [x03])].
Proof. exact C82_example_pf. Qed.

