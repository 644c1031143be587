(** GENERATED by tools/gen_props.py from Proofs/T_Net10.v: statements only. *)

(** Joint model of a subscriber and a publisher socket: the way back to a connection (C86). *)
From Coq Require Import List NArith Permutation Sorting.Sorted Init.Byte.
From Verif Require Import Model.Base Model.Map Model.Framed Model.WirePubSub Model.WireAuth Model.Compression Model.Handshake Model.JoinMap Model.Backoff Model.Trie Model.PubDriver Model.SubDriver Model.Net Model.PubSubNet
  Spec.CompressSpec Spec.Utf8Spec Spec.Topics Spec.PubSpec Spec.SubSpec Spec.NetSpec2 Spec.NetSpec6 Spec.NetSpec9.
Import ListNotations.
Open Scope N_scope.
From Verif Require Import Proofs.T_Net10.

(** C86: whatever happened before, a subscriber that has no connection to a publisher it was told to connect to (attempts have
    failed, or the session has ended) and has a retry left, or an attempt under way, can get a new one, if the publisher lets it in: within 8
    steps, the last of which is at the latest when the back-off's timer says so.  The new session is told the topics the
    subscriber is subscribed to (the first 64, in the order in which the driver goes through them), whenever they were
    subscribed; the publisher's new session starts with the messages published from now on.  Everything else is as before:
    the topics, the calls and messages in the queues, the other publishers, connections and sessions. *)
Theorem C86_way_back :
  forall (token : option bytes) (ingress initial : N) (D : decompressors) (max : option N) (buf min : N)
         (auth : option (bytes -> bool)) (co : option compressor) (now : N) (order : list bytes) (evs : list zev) (a : addr) (b : backoff),
  let run := z_run token ingress initial D max buf min auth co in
  let z := run evs in let c := sb_next (z_c z) in let d := pb_next_cid (z_s z) in
  (forall t, token = Some t -> blen t < 2 ^ 32) ->
  can_come_back token z a b -> sub_let_in token auth -> pub_has_room max (z_s z) -> sb_dropped (z_c z) = false -> pb_closed (z_s z) = false ->
  exists more ts, let z' := run (evs ++ more) in
    (length more <= 8)%nat /\ Forall (coming_back a now (next_dial b now) order) more /\ Sorted N.le (dial_times more) /\
    in_touch z' c d /\ back_again a c d ts z z' /\
    (exists o, z_clog z' = z_clog z ++ o /\ Forall (dialling a c) o) /\ (exists o, z_slog z' = z_slog z ++ o /\ Forall (letting_in d) o).
Proof. exact C86_way_back_pf. Qed.
Print Assumptions C86_way_back.

(** So subscriptions survive the loss of a connection: when both sides have done their work (at most 3 further steps for each
    topic, and one for each message the application has not taken), they are at rest with the publisher's filter for the
    new connection made of exactly these topics, nothing obtained on it yet, and messages published then, not more
    than the queue holds, are obtained in order: exactly those that the filter lets through.  So with at most 64 topics, each
    message of a subscribed topic, and only messages that match one. *)
Theorem C86_subscriptions_restored :
  forall (token : option bytes) (ingress initial : N) (D : decompressors) (max : option N) (buf min : N)
         (auth : option (bytes -> bool)) (co : option compressor) (now later : N) (order : list bytes) (evs : list zev) (a : addr) (b : backoff),
  let run := z_run token ingress initial D max buf min auth co in
  let z := run evs in let c := sb_next (z_c z) in let d := pb_next_cid (z_s z) in
  (forall t, token = Some t -> blen t < 2 ^ 32) -> 0 < ingress -> (forall cm, co = Some cm -> inverse_of D cm) -> later < 2 ^ 64 ->
  Forall (input_fits co) evs -> (forall t p, In (t, p) (announced evs) -> utf8 t) -> all_published (z_slog z) ->
  (forall t, In t (sb_topics (z_c z)) -> utf8 t) ->
  can_come_back token z a b -> sub_let_in token auth -> pub_has_room max (z_s z) -> sb_dropped (z_c z) = false -> pb_closed (z_s z) = false ->
  exists more more2 ts, let evs2 := evs ++ more ++ more2 in let z2 := run evs2 in let ops := map TSub (firstn 64 ts) in
    Forall (coming_back a now (next_dial b now) order) more /\ Sorted N.le (dial_times more) /\ Forall (helpful later c d) more2 /\
    (length more <= 8 /\ length more2 <= length (sb_out (z_c z)) + 3 * length (sb_topics (z_c z)))%nat /\
    Permutation ts (sb_topics (z_c z)) /\ sb_topics (z_c z2) = sb_topics (z_c z) /\
    in_touch z2 c d /\ all_done z2 c d /\ obtained c (z_clog z2) = [] /\ ops_of d (z_slog z2) = ops /\
    forall msgs, blen msgs <= bcast_cap buf ->
      (forall t p, In (t, p) msgs -> utf8 t /\ blen t < 2 ^ 16 /\ payload_fits co p /\ publish_outgoing min co p <> None) ->
      exists more3, let z3 := run (evs2 ++ zpubs msgs ++ more3) in let got := filter (fun q => trie_contains (trie_run ops) (fst q)) msgs in
        Forall (helpful later c d) more3 /\ in_touch z3 c d /\ all_done z3 c d /\ obtained c (z_clog z3) = got /\
        ((length (sb_topics (z_c z)) <= 64)%nat -> (forall t us, In t (sb_topics (z_c z)) -> tokens_of t us -> gt_only_last us) ->
           (forall t us p, In t (sb_topics (z_c z)) -> tokens_of t us -> ~ In gt us -> In (t, p) msgs -> In (t, p) got) /\
           (forall u p us, In (u, p) got -> tokens_of u us -> exists s ss, In s (sb_topics (z_c z)) /\ tokens_of s ss /\ matches ss us)).
Proof. exact C86_subscriptions_restored_pf. Qed.
Print Assumptions C86_subscriptions_restored.

(** In the first run, the first attempt to connect has failed and the back-off's timer is armed, two topics are subscribed and a
    message was published; the next attempt starts at the latest at time 1010.  In the second run the subscriber was
    connected and has obtained two messages (C79), then the application disconnected, subscribed to another topic and connected
    again; the attempt is under way. *)
Example C86_example :
  let run := z_run (Some zx_tok) 4 1000 zx_D None 8 0 (Some zx_auth) (Some zx_co) in
  let evs1 := [ZApi (ApSub true zx_star); ZApi (ApConnect true (Some sx_addr)); ZCommand; ZCommand; ZJoin 0 JFail []; ZEntry sx_addr 10;
               ZApi (ApSub true [x64]); ZCommand; ZPublish zx_ab [x01]] in
  let evs2 := zx_evs ++ [ZApi (ApDisconnect true (Some sx_addr)); ZCommand; ZApi (ApSub true [x64]); ZCommand; ZApi (ApConnect true (Some sx_addr)); ZCommand] in
  (forall cm, Some zx_co = Some cm -> inverse_of zx_D cm) /\ sub_let_in (Some zx_tok) (Some zx_auth) /\
  (forall z, pub_has_room None z) /\
  (let z := run evs1 in exists b, can_come_back (Some zx_tok) z sx_addr b /\ next_dial b 500 = 1010 /\
     sb_dropped (z_c z) = false /\ pb_closed (z_s z) = false /\ Forall (input_fits (Some zx_co)) evs1 /\
     (forall t p, In (t, p) (announced evs1) -> utf8 t) /\ all_published (z_slog z) /\
     sb_topics (z_c z) = [zx_star; [x64]] /\ (forall t, In t (sb_topics (z_c z)) -> utf8 t)) /\
  (let z := run evs2 in exists b, can_come_back (Some zx_tok) z sx_addr b /\ sb_dropped (z_c z) = false /\ pb_closed (z_s z) = false /\
     sb_topics (z_c z) = [zx_star; [x64]] /\ sb_next (z_c z) = 1 /\ pb_next_cid (z_s z) = 1 /\ obtained 0 (z_clog z) = [(zx_ab, [x01]); (zx_cb, [x03])]).
Proof. exact C86_example_pf. Qed.

