(** Joint model of a subscriber and a publisher socket: every fair schedule comes to rest, and everything arrives (C82). *)
From Coq Require Import List NArith Sorting.Sorted Init.Byte.
From Verif Require Import Model.Base Model.Map Model.Framed Model.WirePubSub Model.WireAuth Model.Compression Model.Handshake Model.JoinMap Model.Backoff Model.Trie Model.PubDriver Model.SubDriver Model.Net Model.PubSubNet
  Spec.CompressSpec Spec.Utf8Spec Spec.Topics Spec.PubSpec Spec.SubSpec Spec.NetSpec2 Spec.NetSpec6 Spec.NetSpec8.
Import ListNotations.
Open Scope N_scope.
(*HEADEND*)
From Verif Require Import Model.Utf8 Proofs.MapP Proofs.TrieP Proofs.PubSubNetP12 Proofs.PubSubNetP15 Proofs.PubSubNetP17 Proofs.PubSubNetP18.
From Verif Require Proofs.Utf8P Proofs.T_Trie Proofs.T_Net7.
Local Open Scope N_scope.

(*@prop C82: a subscriber and a publisher that are in touch finish everything that is under way, under EVERY fair schedule: whatever
    happened before, in whatever order the subscriber's driver, its session, the publisher's session and the application
    that takes messages are run from now on, however the transport cuts the streams into pieces and however many
    frames it takes at a time, and whatever the timing: if each of them gets a real turn again and again and only does its part,
    then from some moment on nothing is left to do, for ever.  Meanwhile nothing is refused or lost, no connection ends and
    nothing else changes.  (The messages must fit into the subscriber's buffers.) *)
Lemma C82_every_fair_schedule_comes_to_rest_pf :
  forall (token : option bytes) (ingress initial : N) (D : decompressors) (max : option N) (buf min : N)
         (auth : option (bytes -> bool)) (co : option compressor) (c d : N) (evs : list zev) (sched : nat -> zev),
  let run := z_run token ingress initial D max buf min auth co in
  let at_ := fun n => run (then_goes_on evs sched n) in
  (forall t, token = Some t -> blen t < 2 ^ 32) -> (forall cm, co = Some cm -> inverse_of D cm) ->
  Forall (input_fits co) evs -> in_touch (run evs) c d -> buffers_suffice ingress buf (run evs) c d -> fair_pubsub c d at_ sched ->
  exists n0, forall n, (n0 <= n)%nat -> in_touch (at_ n) c d /\ all_done (at_ n) c d /\ kept c d (run evs) (at_ n).
Proof.
  intros token ingress initial D max buf min auth co c d evs sched run at_ T Iv F Tc Ld Fr. destruct (parts_of _ _ _ Tc) as (l & k & x & y & P).
  destruct (comes_to_rest token ingress initial D max buf min auth co T Iv evs c d l sched F (ex_intro _ k (ex_intro _ x (ex_intro _ y P))) Ld Fr) as (n0 & H).
  exists n0. intros n Le. destruct (H n Le) as (G & G1 & G2). split; [exact G1|]. split; [exact G2|]. apply G.
Qed.

(*@prop And then the application has obtained, in the order of publication, each once, exactly: the messages that were due to
    the connection already, and, of those that the publisher's session had not looked at, the ones its filter lets
    through -- except those that had already been pushed out of the queue of session_buffer_size messages. *)
Lemma C82_every_fair_schedule_delivers_pf :
  forall (token : option bytes) (ingress initial : N) (D : decompressors) (max : option N) (buf min : N)
         (auth : option (bytes -> bool)) (co : option compressor) (c d : N) (evs : list zev) (sched : nat -> zev),
  let run := z_run token ingress initial D max buf min auth co in
  let z := run evs in
  let at_ := fun n => run (then_goes_on evs sched n) in
  (forall t, token = Some t -> blen t < 2 ^ 32) -> (forall cm, co = Some cm -> inverse_of D cm) ->
  Forall (input_fits co) evs -> in_touch z c d -> buffers_suffice ingress buf z c d -> fair_pubsub c d at_ sched ->
  (forall t p, In (t, p) (announced evs) -> utf8 t) -> all_published (z_slog z) -> nothing_refused c (z_clog z) ->
  exists n0, forall n, (n0 <= n)%nat -> exists places,
    StronglySorted N.lt places /\ Forall2 (fun i q => nth_error (announced evs) (N.to_nat i) = Some q) places (obtained c (z_clog (at_ n))) /\
    forall i, In i places <->
      due d (z_slog z) i \/
      (first_unread buf z d <= i /\
       exists t p, nth_error (announced evs) (N.to_nat i) = Some (t, p) /\ trie_contains (trie_run (ops_of d (z_slog z))) t = true).
Proof.
  intros token ingress initial D max buf min auth co c d evs sched run z at_ T Iv F Tc Ld Fr U Ap Nr. destruct (parts_of _ _ _ Tc) as (l & k & x & y & P).
  destruct (fair_obtained token ingress initial D max buf min auth co T Iv evs c d l sched F (ex_intro _ k (ex_intro _ x (ex_intro _ y P))) Ld Fr U Ap Nr) as (n0 & H).
  exists n0. intros n Le. destruct (H n Le) as (_ & _ & _ & is & I1 & I2 & I3). exists is. auto.
Qed.

(*@prop There are such schedules, from every such state (for instance, to let everybody have his turn one after the other). *)
Lemma C82_there_are_fair_schedules_pf :
  forall (token : option bytes) (ingress initial : N) (D : decompressors) (max : option N) (buf min : N)
         (auth : option (bytes -> bool)) (co : option compressor) (c d : N) (evs : list zev),
  let run := z_run token ingress initial D max buf min auth co in
  (forall t, token = Some t -> blen t < 2 ^ 32) -> (forall cm, co = Some cm -> inverse_of D cm) ->
  Forall (input_fits co) evs -> in_touch (run evs) c d -> buffers_suffice ingress buf (run evs) c d ->
  exists sched, fair_pubsub c d (fun n => run (then_goes_on evs sched n)) sched.
Proof.
  intros token ingress initial D max buf min auth co c d evs run T Iv F Tc Ld. destruct (parts_of _ _ _ Tc) as (l & k & x & y & P).
  eexists. apply (robin_fair token ingress initial D max buf min auth co T Iv evs c d l F (ex_intro _ k (ex_intro _ x (ex_intro _ y P))) Ld).
Qed.

(*@prop So messages published when subscriber and publisher are at rest, no more of them than the queues hold, are obtained by the
    application under every fair schedule: exactly those that the filter of the connection lets through, in the order of
    publication. *)
Lemma C82_published_at_rest_arrives_pf :
  forall (token : option bytes) (ingress initial : N) (D : decompressors) (max : option N) (buf min : N)
         (auth : option (bytes -> bool)) (co : option compressor) (c d : N) (evs : list zev) (msgs : list (bytes * bytes)) (sched : nat -> zev),
  let run := z_run token ingress initial D max buf min auth co in
  let z := run evs in
  let at_ := fun n => run (then_goes_on (evs ++ zpubs msgs) sched n) in
  (forall t, token = Some t -> blen t < 2 ^ 32) -> (forall cm, co = Some cm -> inverse_of D cm) ->
  Forall (input_fits co) evs -> in_touch z c d -> all_done z c d ->
  (forall t p, In (t, p) (announced evs) -> utf8 t) -> all_published (z_slog z) -> nothing_refused c (z_clog z) ->
  blen msgs <= bcast_cap buf -> blen msgs <= 1024 -> blen msgs <= ingress ->
  (forall t p, In (t, p) msgs -> utf8 t /\ blen t < 2 ^ 16 /\ payload_fits co p /\ publish_outgoing min co p <> None) ->
  fair_pubsub c d at_ sched ->
  exists n0, forall n, (n0 <= n)%nat -> in_touch (at_ n) c d /\ all_done (at_ n) c d /\
    obtained c (z_clog (at_ n)) = obtained c (z_clog z) ++ filter (fun q => trie_contains (trie_run (ops_of d (z_slog z))) (fst q)) msgs.
Proof.
  intros token ingress initial D max buf min auth co c d evs msgs sched run z at_ T Iv F Tc Dn U Ap Nr B1 B2 B3 Hm Fr.
  exact (batch_fair token ingress initial D max buf min auth co T Iv evs c d msgs sched F Tc Dn U Ap Nr B1 B2 B3 Hm Fr).
Qed.

(*@prop And a new subscription takes effect under every fair schedule: once the driver has looked at the command, then from some
    moment on the publisher's filter for this connection is extended by the topic, for ever; and messages published then (any
    time later), no more than the queues hold, are obtained under every fair schedule: exactly those that the filter
    lets through. *)
Lemma C82_subscription_takes_effect_pf :
  forall (token : option bytes) (ingress initial : N) (D : decompressors) (max : option N) (buf min : N)
         (auth : option (bytes -> bool)) (co : option compressor) (c d : N) (evs : list zev) (b : bool) (t : bytes) (sched : nat -> zev),
  let run := z_run token ingress initial D max buf min auth co in
  let z := run evs in
  let ops := ops_of d (z_slog z) in
  let evs1 := then_goes_on (evs ++ [ZApi (ApSub b t); ZCommand]) sched in
  let at1 := fun n => run (evs1 n) in
  (forall t, token = Some t -> blen t < 2 ^ 32) -> (forall cm, co = Some cm -> inverse_of D cm) ->
  Forall (input_fits co) evs -> in_touch z c d -> all_done z c d ->
  (forall t p, In (t, p) (announced evs) -> utf8 t) -> all_published (z_slog z) -> nothing_refused c (z_clog z) -> sb_cmdq (z_c z) = [] ->
  utf8 t -> blen t + 10 < 2 ^ 16 -> starts_with MSG t = false -> ~ In t (sb_topics (z_c z)) -> fair_pubsub c d at1 sched ->
  exists n0, forall n, (n0 <= n)%nat ->
    in_touch (at1 n) c d /\ all_done (at1 n) c d /\
    (exists o, z_clog (at1 n) = z_clog z ++ UApi (ApSub b t) AOk :: o) /\
    (forall u, In u (sb_topics (z_c (at1 n))) <-> u = t \/ In u (sb_topics (z_c z))) /\
    obtained c (z_clog (at1 n)) = obtained c (z_clog z) /\ ops_of d (z_slog (at1 n)) = ops ++ [TSub t] /\
    forall msgs sched2, blen msgs <= bcast_cap buf -> blen msgs <= 1024 -> blen msgs <= ingress ->
      (forall t p, In (t, p) msgs -> utf8 t /\ blen t < 2 ^ 16 /\ payload_fits co p /\ publish_outgoing min co p <> None) ->
      let at2 := fun m => run (then_goes_on (evs1 n ++ zpubs msgs) sched2 m) in
      let got := filter (fun q => trie_contains (trie_run (ops ++ [TSub t])) (fst q)) msgs in
      fair_pubsub c d at2 sched2 ->
      (exists m0, forall m, (m0 <= m)%nat -> obtained c (z_clog (at2 m)) = obtained c (z_clog z) ++ got) /\
      (subs_all gt_only_last (ops ++ [TSub t]) -> forall ts p, tokens_of t ts -> ~ In gt ts -> In (t, p) msgs -> In (t, p) got).
Proof.
  intros token ingress initial D max buf min auth co c d evs b t sched run z ops evs1 at1 T Iv F Tc Dn U Ap Nr Cq Ut Bt Sw Nt Fr.
  destruct (command_fair token ingress initial D max buf min auth co T Iv evs c d (ApSub b t) (CSub t) (SSub t) (sins t (sb_topics (z_c z))) sched F Tc Dn U Ap Nr Cq (asks_sub initial b t (z_c z) Sw Nt) Bt Fr) as (n0 & H).
  exists n0. intros n Le. destruct (H n Le) as (H1 & H2 & H3 & H4 & H5 & H6 & H7 & H8 & H9 & H10 & H11). rewrite Utf8P.lossy_id in H11 by exact Ut.
  split; [exact H3|]. split; [exact H4|]. split; [exact H9|]. split.
  { intros u. unfold at1, run, evs1. rewrite H7. unfold sins. destruct (smem t (sb_topics (z_c z))) eqn:E; [apply smem_true in E; contradiction|]. rewrite in_app_iff. cbn [In]. intuition congruence. }
  split; [exact H10|]. split; [exact H11|]. intros msgs sched2 B1 B2 B3 Hm at2 got Fr2. split.
  - assert (U1 : forall t p, In (t, p) (announced (evs1 n)) -> utf8 t) by (unfold evs1; rewrite H2; exact U).
    destruct (batch_fair token ingress initial D max buf min auth co T Iv (evs1 n) c d msgs sched2 H1 H3 H4 U1 H5 H6 B1 B2 B3 Hm Fr2) as (m0 & K).
    exists m0. intros m Lm. destruct (K m Lm) as (_ & _ & K3). unfold at2, run, got. etransitivity; [exact K3|]. unfold evs1. rewrite H10, H11. reflexivity.
  - intros Sa ts p Ht Hg Hi. apply filter_In. split; [exact Hi|]. cbn [fst]. eapply T_Trie.C30_exact_topic_always_forwarded_pf; eauto. apply held_now.
Qed.

(*@example The run of C54, when three messages were published and none looked at (see the example of C79): they fit into the buffers,
    so there is a fair schedule, and under every fair schedule the two messages that the filter lets through are obtained. *)
Lemma C82_example_pf :
  let run := z_run (Some zx_tok) 4 1000 zx_D None 8 0 (Some zx_auth) (Some zx_co) in
  let evs := firstn 17 zx_evs in
  in_touch (run evs) 0 0 /\ buffers_suffice 4 8 (run evs) 0 0 /\ still_to_come 8 (run evs) 0 0 = 3%nat /\
  (exists sched, fair_pubsub 0 0 (fun n => run (then_goes_on evs sched n)) sched) /\
  forall sched, fair_pubsub 0 0 (fun n => run (then_goes_on evs sched n)) sched ->
    exists n, obtained 0 (z_clog (run (then_goes_on evs sched n))) = [(zx_ab, [x01]); (zx_cb, [x03])].
Proof.
  cbv zeta. destruct T_Net7.C79_example_pf as (A1 & A2 & A3 & A4 & A5 & A6 & A7 & A8 & A9 & _).
  set (z := z_run (Some zx_tok) 4 1000 zx_D None 8 0 (Some zx_auth) (Some zx_co) (firstn 17 zx_evs)) in *.
  assert (T : forall t, Some zx_tok = Some t -> blen t < 2 ^ 32) by (intros t H; inversion H; reflexivity).
  assert (S : still_to_come 8 z 0 0 = 3%nat) by (vm_compute; reflexivity).
  assert (B : buffers_suffice 4 8 z 0 0). { unfold buffers_suffice. rewrite S. assert (O : sb_out (z_c z) = []) by (vm_compute; reflexivity). rewrite O. cbn. lia. }
  split; [exact A3|]. split; [exact B|]. split; [exact S|]. split; [eapply C82_there_are_fair_schedules_pf; eauto|].
  intros sched Fr. destruct (C82_every_fair_schedule_delivers_pf _ _ _ _ _ _ _ _ _ _ _ _ _ T A1 A2 A3 B Fr A4 A5 A6) as (n0 & H).
  exists n0. destruct (H n0 (le_n _)) as (is & I1 & I2 & I3). fold z in I3. rewrite A8 in I3.
  assert (Ol : ops_of 0 (z_slog z) = [TSub zx_star]) by (vm_compute; reflexivity). rewrite Ol in I3.
  assert (Du : forall i, ~ due 0 (z_slog z) i).
  { intros i (bf & af & p & E & _). assert (In (QTook 0 i) (z_slog z)) by (rewrite E; apply in_or_app; right; left; reflexivity). clear - H0.
    let v := eval vm_compute in (z_slog z) in assert (Es : z_slog z = v) by (vm_compute; reflexivity). rewrite Es in H0. cbn [In] in H0. intuition discriminate. }
  assert (Ea : announced (firstn 17 zx_evs) = [(zx_ab, [x01]); ([x61], [x02]); (zx_cb, [x03])]) by (vm_compute; reflexivity). rewrite Ea in *.
  assert (E : is = [0; 2]).
  { apply PubSubNetP14.sorted_unique; [exact I1|repeat constructor|]. intros i. rewrite I3. split.
    - intros [K|(_ & t & p & K1 & K2)]; [destruct (Du _ K)|]. cbn [In]. assert (i < 3). { assert (N.to_nat i < 3)%nat by (apply (proj1 (nth_error_Some [(zx_ab, [x01]); ([x61], [x02]); (zx_cb, [x03])] (N.to_nat i))); congruence). lia. }
      assert (C : i = 0 \/ i = 1 \/ i = 2) by lia. destruct C as [-> |[-> | ->]]; auto. exfalso. injection K1 as <- <-. vm_compute in K2. discriminate.
    - cbn [In]. intros [<-|[<-|[]]]; right; (split; [lia|]); do 2 eexists; (split; [reflexivity|vm_compute; reflexivity]). }
  subst is. revert I2. generalize (obtained 0 (z_clog (z_run (Some zx_tok) 4 1000 zx_D None 8 0 (Some zx_auth) (Some zx_co) (then_goes_on (firstn 17 zx_evs) sched n0)))). clear. intros got I2. inversion I2 as [|a1 q1 l1 r1 Q1 R1]; subst. inversion R1 as [|a2 q2 l2 r2 Q2 R2]; subst. inversion R2; subst. injection Q1 as <-. injection Q2 as <-. reflexivity.
Qed.
