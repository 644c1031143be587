(** GENERATED by tools/gen_props.py from Proofs/T_Net7.v: statements only. *)

(** Joint model of a subscriber and a publisher socket: there is always a way on (C79), subscriptions take effect (C80). *)
From Coq Require Import List NArith Sorting.Sorted Init.Byte.
From Verif Require Import Model.Base Model.Map Model.Framed Model.WirePubSub Model.WireAuth Model.Compression Model.Handshake Model.JoinMap Model.Backoff Model.Trie Model.PubDriver Model.SubDriver Model.Net Model.PubSubNet
  Spec.CompressSpec Spec.Utf8Spec Spec.Topics Spec.PubSpec Spec.SubSpec Spec.NetSpec2 Spec.NetSpec6.
Import ListNotations.
Open Scope N_scope.
From Verif Require Import Proofs.T_Net7.

(** C79: whatever happened before, if a subscriber and a publisher are in touch, then there is a sequence of steps, each of
    which only needs the session tasks, the driver and the application to do their work on a network that carries data,
    after which nothing is left to do, and there are at most as many steps as there is work: 5 for a message the
    publisher's session has not looked at, 4 for one it has in hand, 3 for one on its way or for a command, and so on.  So
    there is no deadlock, whatever is in the queues and in whatever pieces data has arrived.  Meanwhile nothing is refused,
    no connection ends and nothing else changes. *)
Theorem C79_way_to_rest :
  forall (token : option bytes) (ingress initial : N) (D : decompressors) (max : option N) (buf min : N)
         (auth : option (bytes -> bool)) (co : option compressor) (now c d : N) (evs : list zev),
  let run := z_run token ingress initial D max buf min auth co in
  (forall t, token = Some t -> blen t < 2 ^ 32) -> 0 < ingress -> (forall cm, co = Some cm -> inverse_of D cm) -> now < 2 ^ 64 ->
  Forall (input_fits co) evs -> in_touch (run evs) c d ->
  exists more, let z' := run (evs ++ more) in
    Forall (helpful now c d) more /\ (length more <= work_to_do (run evs) c d)%nat /\
    in_touch z' c d /\ all_done z' c d /\ near c d (run evs) z'.
Proof. exact C79_way_to_rest_pf. Qed.
Print Assumptions C79_way_to_rest.

(** And then the application has obtained, in the order of publication, each once, exactly: the messages that were due to
    the connection already, and, of those that the publisher's session had not looked at, the ones its filter lets
    through -- except those that had already been pushed out of the queue of session_buffer_size messages. *)
Theorem C79_all_obtained :
  forall (token : option bytes) (ingress initial : N) (D : decompressors) (max : option N) (buf min : N)
         (auth : option (bytes -> bool)) (co : option compressor) (now c d : N) (evs : list zev),
  let run := z_run token ingress initial D max buf min auth co in
  let z := run evs in
  (forall t, token = Some t -> blen t < 2 ^ 32) -> 0 < ingress -> (forall cm, co = Some cm -> inverse_of D cm) -> now < 2 ^ 64 ->
  Forall (input_fits co) evs -> in_touch z c d ->
  (forall t p, In (t, p) (announced evs) -> utf8 t) -> all_published (z_slog z) -> nothing_refused c (z_clog z) ->
  exists more places, let z' := run (evs ++ more) in
    Forall (helpful now c d) more /\ (length more <= work_to_do z c d)%nat /\ all_done z' c d /\
    StronglySorted N.lt places /\ Forall2 (fun i q => nth_error (announced evs) (N.to_nat i) = Some q) places (obtained c (z_clog z')) /\
    forall i, In i places <->
      due d (z_slog z) i \/
      (first_unread buf z d <= i /\
       exists t p, nth_error (announced evs) (N.to_nat i) = Some (t, p) /\ trie_contains (trie_run (ops_of d (z_slog z))) t = true).
Proof. exact C79_all_obtained_pf. Qed.
Print Assumptions C79_all_obtained.

(** C80: messages published when subscriber and publisher are at rest, no more of them than the queue holds, are obtained by
    the application, if everybody does his job: exactly those that the filter of the connection lets through, in the order of
    publication. *)
Theorem C80_published_at_rest_arrives :
  forall (token : option bytes) (ingress initial : N) (D : decompressors) (max : option N) (buf min : N)
         (auth : option (bytes -> bool)) (co : option compressor) (now c d : N) (evs : list zev) (msgs : list (bytes * bytes)),
  let run := z_run token ingress initial D max buf min auth co in
  let z := run evs in
  (forall t, token = Some t -> blen t < 2 ^ 32) -> 0 < ingress -> (forall cm, co = Some cm -> inverse_of D cm) -> now < 2 ^ 64 ->
  Forall (input_fits co) evs -> in_touch z c d -> all_done z c d ->
  (forall t p, In (t, p) (announced evs) -> utf8 t) -> all_published (z_slog z) -> nothing_refused c (z_clog z) ->
  blen msgs <= bcast_cap buf ->
  (forall t p, In (t, p) msgs -> utf8 t /\ blen t < 2 ^ 16 /\ payload_fits co p /\ publish_outgoing min co p <> None) ->
  exists more, let z' := run (evs ++ zpubs msgs ++ more) in
    Forall (helpful now c d) more /\ in_touch z' c d /\ all_done z' c d /\
    obtained c (z_clog z') = obtained c (z_clog z) ++ filter (fun q => trie_contains (trie_run (ops_of d (z_slog z))) (fst q)) msgs.
Proof. exact C80_published_at_rest_arrives_pf. Qed.
Print Assumptions C80_published_at_rest_arrives.

(** A new subscription takes effect: if the application subscribes, the driver looks at the command, and everybody does his
    job, then publisher and subscriber come to rest again with the publisher's filter for this connection extended by this
    topic.  Then messages published, not more than the queue holds, are obtained in order: exactly those that the filter lets
    through, so each message of the topic (if no `>` is used in it and none inside another subscription), and only
    messages that match a topic subscribed to. *)
Theorem C80_subscription_takes_effect :
  forall (token : option bytes) (ingress initial : N) (D : decompressors) (max : option N) (buf min : N)
         (auth : option (bytes -> bool)) (co : option compressor) (now c d : N) (evs : list zev) (b : bool) (t : bytes),
  let run := z_run token ingress initial D max buf min auth co in
  let z := run evs in
  let ops := ops_of d (z_slog z) in
  (forall t, token = Some t -> blen t < 2 ^ 32) -> 0 < ingress -> (forall cm, co = Some cm -> inverse_of D cm) -> now < 2 ^ 64 ->
  Forall (input_fits co) evs -> in_touch z c d -> all_done z c d ->
  (forall t p, In (t, p) (announced evs) -> utf8 t) -> all_published (z_slog z) -> nothing_refused c (z_clog z) -> sb_cmdq (z_c z) = [] ->
  utf8 t -> blen t + 10 < 2 ^ 16 -> starts_with MSG t = false -> ~ In t (sb_topics (z_c z)) ->
  exists more, let evs1 := evs ++ [ZApi (ApSub b t); ZCommand] ++ more in let z1 := run evs1 in
    Forall (helpful now c d) more /\ in_touch z1 c d /\ all_done z1 c d /\
    (exists o, z_clog z1 = z_clog z ++ UApi (ApSub b t) AOk :: o) /\
    (forall u, In u (sb_topics (z_c z1)) <-> u = t \/ In u (sb_topics (z_c z))) /\
    obtained c (z_clog z1) = obtained c (z_clog z) /\ ops_of d (z_slog z1) = ops ++ [TSub t] /\
    forall msgs, blen msgs <= bcast_cap buf ->
      (forall t p, In (t, p) msgs -> utf8 t /\ blen t < 2 ^ 16 /\ payload_fits co p /\ publish_outgoing min co p <> None) ->
      exists more2, let z2 := run (evs1 ++ zpubs msgs ++ more2) in let got := filter (fun q => trie_contains (trie_run (ops ++ [TSub t])) (fst q)) msgs in
        Forall (helpful now c d) more2 /\ in_touch z2 c d /\ all_done z2 c d /\
        obtained c (z_clog z2) = obtained c (z_clog z) ++ got /\
        (subs_all gt_only_last (ops ++ [TSub t]) ->
           (forall ts p, tokens_of t ts -> ~ In gt ts -> In (t, p) msgs -> In (t, p) got) /\
           (forall u p us, In (u, p) got -> tokens_of u us -> exists s ss, held (ops ++ [TSub t]) s /\ tokens_of s ss /\ matches ss us)).
Proof. exact C80_subscription_takes_effect_pf. Qed.
Print Assumptions C80_subscription_takes_effect.

(** And so does the end of a subscription: after unsubscribe, when everybody has done his job, the filter is that of the
    remaining subscriptions, and only messages that match one of them are obtained. *)
Theorem C80_unsubscribe_takes_effect :
  forall (token : option bytes) (ingress initial : N) (D : decompressors) (max : option N) (buf min : N)
         (auth : option (bytes -> bool)) (co : option compressor) (now c d : N) (evs : list zev) (b : bool) (t : bytes),
  let run := z_run token ingress initial D max buf min auth co in
  let z := run evs in
  let ops := ops_of d (z_slog z) in
  (forall t, token = Some t -> blen t < 2 ^ 32) -> 0 < ingress -> (forall cm, co = Some cm -> inverse_of D cm) -> now < 2 ^ 64 ->
  Forall (input_fits co) evs -> in_touch z c d -> all_done z c d ->
  (forall t p, In (t, p) (announced evs) -> utf8 t) -> all_published (z_slog z) -> nothing_refused c (z_clog z) -> sb_cmdq (z_c z) = [] ->
  utf8 t -> blen t + 10 < 2 ^ 16 -> starts_with MSG t = false -> In t (sb_topics (z_c z)) ->
  exists more, let evs1 := evs ++ [ZApi (ApUnsub b t); ZCommand] ++ more in let z1 := run evs1 in
    Forall (helpful now c d) more /\ in_touch z1 c d /\ all_done z1 c d /\
    (exists o, z_clog z1 = z_clog z ++ UApi (ApUnsub b t) AOk :: o) /\
    (forall u, In u (sb_topics (z_c z1)) <-> u <> t /\ In u (sb_topics (z_c z))) /\
    obtained c (z_clog z1) = obtained c (z_clog z) /\ ops_of d (z_slog z1) = ops ++ [TUnsub t] /\
    forall msgs, blen msgs <= bcast_cap buf ->
      (forall t p, In (t, p) msgs -> utf8 t /\ blen t < 2 ^ 16 /\ payload_fits co p /\ publish_outgoing min co p <> None) ->
      exists more2, let z2 := run (evs1 ++ zpubs msgs ++ more2) in let got := filter (fun q => trie_contains (trie_run (ops ++ [TUnsub t])) (fst q)) msgs in
        Forall (helpful now c d) more2 /\ in_touch z2 c d /\ all_done z2 c d /\
        obtained c (z_clog z2) = obtained c (z_clog z) ++ got /\
        (subs_all gt_only_last ops ->
           (forall u p us, In (u, p) got -> tokens_of u us -> exists s ss, s <> t /\ held ops s /\ tokens_of s ss /\ matches ss us)).
Proof. exact C80_unsubscribe_takes_effect_pf. Qed.
Print Assumptions C80_unsubscribe_takes_effect.

(** The run of C54, up to the publishing: three messages were published, none looked at.  Then the whole of it: at rest. *)
Example C79_example :
  let run := z_run (Some zx_tok) 4 1000 zx_D None 8 0 (Some zx_auth) (Some zx_co) in
  let evs := firstn 17 zx_evs in
  (forall cm, Some zx_co = Some cm -> inverse_of zx_D cm) /\ Forall (input_fits (Some zx_co)) evs /\ in_touch (run evs) 0 0 /\
  (forall t p, In (t, p) (announced evs) -> utf8 t) /\ all_published (z_slog (run evs)) /\ nothing_refused 0 (z_clog (run evs)) /\
  work_to_do (run evs) 0 0 = 15%nat /\ first_unread 8 (run evs) 0 = 0 /\ obtained 0 (z_clog (run evs)) = [] /\
  in_touch (run zx_evs) 0 0 /\ all_done (run zx_evs) 0 0 /\ Forall (helpful 5 0 0) (skipn 17 zx_evs) /\
  obtained 0 (z_clog (run zx_evs)) = [(zx_ab, [x01]); (zx_cb, [x03])].
Proof. exact C79_example_pf. Qed.

(** At the end of that run the application subscribes to "d" (and ends its subscription of "*.b"), and "d" and "a.b" are published. *)
Example C80_example :
  let run := z_run (Some zx_tok) 4 1000 zx_D None 8 0 (Some zx_auth) (Some zx_co) in
  let z := run zx_evs in
  let msgs := [([x64], [x09]); (zx_ab, [x0a])] in
  (forall cm, Some zx_co = Some cm -> inverse_of zx_D cm) /\ Forall (input_fits (Some zx_co)) zx_evs /\ in_touch z 0 0 /\ all_done z 0 0 /\
  (forall t p, In (t, p) (announced zx_evs) -> utf8 t) /\ all_published (z_slog z) /\ nothing_refused 0 (z_clog z) /\ sb_cmdq (z_c z) = [] /\
  utf8 [x64] /\ starts_with MSG [x64] = false /\ ~ In [x64] (sb_topics (z_c z)) /\
  utf8 zx_star /\ starts_with MSG zx_star = false /\ In zx_star (sb_topics (z_c z)) /\
  blen msgs <= bcast_cap 8 /\ (forall t p, In (t, p) msgs -> utf8 t /\ blen t < 2 ^ 16 /\ payload_fits (Some zx_co) p /\ publish_outgoing 0 (Some zx_co) p <> None) /\
  ops_of 0 (z_slog z) = [TSub zx_star] /\
  filter (fun q => trie_contains (trie_run ([TSub zx_star] ++ [TSub [x64]])) (fst q)) msgs = msgs /\
  filter (fun q => trie_contains (trie_run ([TSub zx_star] ++ [TUnsub zx_star])) (fst q)) msgs = [] /\
  filter (fun q => trie_contains (trie_run [TSub zx_star]) (fst q)) msgs = [(zx_ab, [x0a])].
Proof. exact C80_example_pf. Qed.

