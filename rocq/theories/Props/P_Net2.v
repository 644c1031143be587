(** GENERATED by tools/gen_props.py from Proofs/T_Net2.v: statements only. *)

(** Publish/subscribe, end to end: C54. *)
From Coq Require Import ZArith Sorting.Sorted.
From Verif Require Import Model.Base Model.Map Model.Framed Model.WirePubSub Model.Compression Model.JoinMap Model.Utf8 Model.Trie Model.PubDriver Model.SubDriver Model.Net Model.PubSubNet
  Spec.Stream Spec.Utf8Spec Spec.CompressSpec Spec.Topics Spec.PubSpec Spec.SubSpec Spec.NetSpec2.
Local Open Scope N_scope.
From Verif Require Import Proofs.T_Net2.

(** C54: in every joint history of a subscriber and a publisher socket (with any other peers, any losses of connections, any
    cutting and delay of the bytes), the two ends of a connection between them correspond one to one; what the subscriber received on
    it is a prefix of what the publisher wrote on it, and the control frames the publisher received are a prefix of those the subscriber
    wrote; and nothing is received on a connection the publisher never took. *)
Theorem C54_connections_are_faithful :
  forall (token : option bytes) (ingress initial : N) (D : decompressors) (max : option N) (buf min : N)
         (auth : option (bytes -> bool)) (co : option compressor) (evs : list zev),
  let z := z_run token ingress initial D max buf min auth co evs in
  (forall t, token = Some t -> blen t < 2 ^ 32) -> ps_frames_fit z ->
  (forall c d d', same_connection z c d -> same_connection z c d' -> d = d') /\
  (forall c c' d, same_connection z c d -> same_connection z c' d -> c = c') /\
  (forall c d, same_connection z c d -> prefix_of (received_on c (z_clog z)) (taken_on d (z_slog z)) /\ prefix_of (controls_on d (z_slog z)) (written_on c (z_clog z))) /\
  (forall c, to_publisher z c -> (forall d, ~ same_connection z c d) -> received_on c (z_clog z) = []).
Proof. exact C54_connections_are_faithful_pf. Qed.
Print Assumptions C54_connections_are_faithful.

(** C54: what the subscriber's application obtains from one connection to the publisher is a subsequence of the publish() and
    try_publish() calls made there - same topics, same payloads, same order, each at most once - whatever compression the publisher
    uses. *)
Theorem C54_obtained_were_published :
  forall (token : option bytes) (ingress initial : N) (D : decompressors) (max : option N) (buf min : N)
         (auth : option (bytes -> bool)) (co : option compressor) (evs : list zev) (c : N),
  let z := z_run token ingress initial D max buf min auth co evs in
  (forall t, token = Some t -> blen t < 2 ^ 32) -> ps_frames_fit z ->
  (forall k, co = Some k -> inverse_of D k) -> (forall t p, In (t, p) (announced evs) -> utf8 t) ->
  to_publisher z c -> subseq (obtained c (z_clog z)) (announced evs).
Proof. exact C54_obtained_were_published_pf. Qed.
Print Assumptions C54_obtained_were_published.

(** C54: only subscribed topics: each message obtained matches, under the documented wildcard rules, a topic the application
    subscribed to and that, after some number of the control frames sent on this connection, was held there.  (Subscriptions with `>`
    elsewhere than at the end are excluded: C29.) *)
Theorem C54_only_subscribed :
  forall (token : option bytes) (ingress initial : N) (D : decompressors) (max : option N) (buf min : N)
         (auth : option (bytes -> bool)) (co : option compressor) (evs : list zev) (c : N) (t p : bytes) (tt : list bytes),
  let z := z_run token ingress initial D max buf min auth co evs in
  (forall t, token = Some t -> blen t < 2 ^ 32) -> ps_frames_fit z ->
  (forall t p, In (t, p) (announced evs) -> utf8 t) ->
  (forall b u, In (ApSub b u) (calls (z_clog z)) -> utf8 u /\ forall us, tokens_of u us -> gt_only_last us) ->
  to_publisher z c -> In (t, p) (obtained c (z_clog z)) -> tokens_of t tt ->
  exists n s ss b, held (means (firstn n (written_on c (z_clog z)))) s /\ tokens_of s ss /\ matches ss tt /\ In (ApSub b s) (calls (z_clog z)).
Proof. exact C54_only_subscribed_pf. Qed.
Print Assumptions C54_only_subscribed.

(** C54: nothing is missing: once everything has arrived and been taken out, if the subscriber had to refuse nothing and the
    connection is up, the application has obtained exactly - once, in order, unmodified - the calls whose message was due on this
    connection (read by the publisher's session when its filter contained the topic). *)
Theorem C54_nothing_missing_at_rest :
  forall (token : option bytes) (ingress initial : N) (D : decompressors) (max : option N) (buf min : N)
         (auth : option (bytes -> bool)) (co : option compressor) (evs : list zev) (c d : N),
  let z := z_run token ingress initial D max buf min auth co evs in
  (forall t, token = Some t -> blen t < 2 ^ 32) -> ps_frames_fit z ->
  (forall k, co = Some k -> inverse_of D k) -> (forall t p, In (t, p) (announced evs) -> utf8 t) ->
  all_published (z_slog z) -> same_connection z c d ->
  arrived z c -> ~ In d (sub_ended (z_slog z)) -> (forall i, ~ about_to_be_sent (z_s z) (z_slog z) d i) ->
  nothing_refused c (z_clog z) -> all_taken_out z c ->
  exists is, StronglySorted N.lt is /\ (forall i, In i is <-> due d (z_slog z) i) /\
    Forall2 (fun i q => nth_error (announced evs) (N.to_nat i) = Some q) is (obtained c (z_clog z)).
Proof. exact C54_nothing_missing_at_rest_pf. Qed.
Print Assumptions C54_nothing_missing_at_rest.

Example C54_example :
  let z := zx_run in
  blen zx_tok < 2 ^ 32 /\ ps_frames_fit z /\ inverse_of zx_D zx_co /\ (forall t p, In (t, p) (announced zx_evs) -> utf8 t) /\
  (forall b u, In (ApSub b u) (calls (z_clog z)) -> utf8 u /\ forall us, tokens_of u us -> gt_only_last us) /\
  all_published (z_slog z) /\ to_publisher z 0 /\ same_connection z 0 0 /\ arrived z 0 /\ ~ In 0 (sub_ended (z_slog z)) /\
  (forall i, ~ about_to_be_sent (z_s z) (z_slog z) 0 i) /\ nothing_refused 0 (z_clog z) /\ all_taken_out z 0 /\
  due 0 (z_slog z) 0 /\ ~ due 0 (z_slog z) 1 /\ due 0 (z_slog z) 2 /\
  obtained 0 (z_clog z) = [(zx_ab, [x01]); (zx_cb, [x03])].
Proof. exact C54_example_pf. Qed.

