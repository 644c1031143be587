(** GENERATED by tools/gen_props.py from Proofs/T_Iso.v: statements only. *)

(** C84: slow, flooding and misbehaving peers and the others. *)
From Coq Require Import List NArith.
From Verif Require Import Model.Base Model.Map Model.Stats Model.Backoff Model.Framed Model.WireReqRep Model.WirePubSub Model.WireAuth Model.Compression Model.Trie Model.Handshake Model.ReqDriver Model.RepDriver Model.PubDriver Model.JoinMap Model.SubDriver
  Spec.Wire Spec.Stream Spec.ReqSpec Spec.RepSpec Spec.PubSpec Spec.SubSpec Spec.IsoSpec.
Import ListNotations.
Open Scope N_scope.
From Verif Require Import Proofs.T_Iso.

(** C84 (publisher): however differently the subscriber on connection [d] behaves in two histories - it reads nothing, it floods the
    publisher with control messages, it disconnects, its session crashes -, everything observed by the application and by all the
    other connections is the same: the same messages at the same turns.  (The exception is `max_clients`: a connection that
    ended makes room.  No connection may be refused in either history.) *)
Theorem C84_publisher_sessions_independent :
  forall max buf min auth co d evs1 evs2 s1 s2 L1 L2,
  apart_from d evs1 = apart_from d evs2 ->
  pb_run max buf min auth co pb_init evs1 = (s1, L1) -> pb_run max buf min auth co pb_init evs2 = (s2, L2) ->
  ~ In QRefused L1 -> ~ In QRefused L2 ->
  seen_by_others d L1 = seen_by_others d L2 /\ forall c, c <> d -> sent_to c L1 = sent_to c L2.
Proof. exact C84_publisher_sessions_independent_pf. Qed.
Print Assumptions C84_publisher_sessions_independent.

(** The subscriber on connection 1 reads nothing in the first history; in the second it subscribes, gets a message and leaves. *)
Example C84_publisher_example :
  let pre := [WAccept; WAccept; WConn 0 (Some true); WConn 0 (Some true); WSession 0 (px_env (px_sub [x61])); WSession 0 (px_env PnPending)] in
  let post := [WTryPublish [x61] [x01]; WSession 0 (px_env PnPending); WSession 0 (px_env PnPending); WSession 0 (px_env PnPending)] in
  let evs1 := pre ++ post in
  let evs2 := pre ++ [WSession 1 (px_env (px_sub [x61]))] ++ post ++ [WSession 1 (px_env PnPending); WSession 1 (px_env PnPending); WSession 1 (px_env PnEof)] in
  let r1 := pb_run (Some 2) 4 100 None None pb_init evs1 in let r2 := pb_run (Some 2) 4 100 None None pb_init evs2 in
  apart_from 1 evs1 = apart_from 1 evs2 /\ length (sent_to 0 (snd r1)) = 1%nat /\ sent_to 1 (snd r1) = [] /\ length (sent_to 1 (snd r2)) = 1%nat /\
  existsb (fun x => match x with QRefused => true | _ => false end) (snd r1 ++ snd r2) = false /\ sub_ended (snd r2) = [1].
Proof. exact C84_publisher_example_pf. Qed.

(** C84 (reply), refuted: the queue of requests waiting for the application is shared, and a full queue does not make the clients
    wait.  One client (address 7, connection 0) fills it with 1024 requests; the first request of another client
    (address 8, connection 1) is read and thrown away, and its sender is not told. *)
Theorem C84_reply_flood_refuted :
  forall D, exists evs s log m,
  rp_run None 0 None None D rp_init evs = (s, log) /\
  Forall (fun q => q_source q = 7) (RepSpec.yielded log) /\ length (RepSpec.yielded log) = 1024%nat /\
  try_decompress D (rr_ctype m) (rr_payload m) = Some [x42] /\ In (RIncoming 1 8 1024 m) log /\ In (RLost 1024) log /\ mem 8 (rp_peers s) = true.
Proof. exact C84_reply_flood_refuted_pf. Qed.
Print Assumptions C84_reply_flood_refuted.

(** C84 (subscriber), what holds: a turn of the session of one connection, and of the driver's work for one publisher address, leaves
    all other connections and addresses as they are. *)
Theorem C84_subscriber_turns_partial :
  (forall token ingress initial D s d e s' o, sb_act token ingress initial D s (YSess d e) = (s', o) ->
     (forall c, c <> d -> mget c (sb_conns s') = mget c (sb_conns s)) /\ sb_pubs s' = sb_pubs s /\ sb_tasks s' = sb_tasks s /\
     sb_topics s' = sb_topics s /\ sb_out s' = sb_out s /\ sb_cmdq s' = sb_cmdq s) /\
  (forall token ingress initial D s a now s' o, sb_act token ingress initial D s (YEntry a now) = (s', o) ->
     (forall c, mget a (sb_pubs s) <> Some (PActive c) -> mget c (sb_conns s') = mget c (sb_conns s)) /\
     (forall b, b <> a -> mget b (sb_pubs s') = mget b (sb_pubs s)) /\ sb_topics s' = sb_topics s /\ sb_cmdq s' = sb_cmdq s /\
     exists w, sb_out s' = sb_out s ++ w).
Proof. exact C84_subscriber_turns_partial_pf. Qed.
Print Assumptions C84_subscriber_turns_partial.

(** C84 (subscriber), refuted: the queue to the application is shared.  With a queue of one message, a message of the first publisher
    that the application has not taken yet makes the driver throw the second publisher's message away. *)
Theorem C84_subscriber_flood_refuted :
  exists evs s log m a, sb_run None 1 1000 sx_D sb_init evs = (s, log) /\ In (UDeliver 1 m a [x02] TFull) log /\
    (forall c m' a' p t, In (UDeliver c m' a' p t) log -> c = 1 \/ a' = sx_addr /\ c = 0) /\ a <> sx_addr.
Proof. exact C84_subscriber_flood_refuted_pf. Qed.
Print Assumptions C84_subscriber_flood_refuted.

(** C84 (subscriber), what holds over whole histories: however differently the publisher behind connection [d] behaves in two histories - it floods the subscriber, sends garbage, takes no frames, goes away -, and whenever
    the application takes its messages, everything that concerns the other publishers is the same: the same frames to them, the same messages from them queued for the application in the same order, the same attempts and statistics.
    (Two exceptions, each refuted or noted elsewhere: the queue to the application must not overflow, and the session must not crash on an oversized topic.) *)
Theorem C84_subscriber_sessions_independent_partial :
  forall token ingress initial D d evs1 evs2 s1 s2 L1 L2,
  sub_apart_from d evs1 = sub_apart_from d evs2 ->
  sb_run token ingress initial D sb_init evs1 = (s1, L1) -> sb_run token ingress initial D sb_init evs2 = (s2, L2) ->
  ~ overflowed L1 -> ~ overflowed L2 -> ~ In (UCrash d) L1 -> ~ In (UCrash d) L2 ->
  others_see d L1 = others_see d L2 /\
  forall c, c <> d -> for_app c L1 = for_app c L2 /\ SubSpec.wired c L1 = SubSpec.wired c L2.
Proof. exact C84_subscriber_sessions_independent_partial_pf. Qed.
Print Assumptions C84_subscriber_sessions_independent_partial.

(** Two publishers.  In the first history the first one sends two messages and reads its subscriptions; in the second it sends nothing, accepts nothing and closes.  What the second one sees and says is the same. *)
Example C84_example_subscriber :
  let other := AV4 2130706433 81 in
  let two := sx_open ++ [YApi (ApConnect true (Some other)); YCommand; YJoin 0 (JConn true []) []] in
  let evs1 := two ++ [YSess 0 (sx_env (sx_msg x00 [x01])); YSess 1 (sx_env PnPending); YSess 0 (sx_env (sx_msg x00 [x01])); YEntry sx_addr 5; YTake; YSess 1 (sx_env (sx_msg x00 [x02])); YEntry other 5] in
  let evs2 := two ++ [YSess 0 (mkYenv true PnEof [] 5); YSess 1 (sx_env PnPending); YEntry sx_addr 5; YSess 1 (sx_env (sx_msg x00 [x02])); YTake; YEntry other 5] in
  sub_apart_from 0 evs1 = sub_apart_from 0 evs2 /\ evs1 <> evs2 /\
  for_app 0 (snd (sx_run evs1)) <> for_app 0 (snd (sx_run evs2)) /\
  for_app 1 (snd (sx_run evs1)) = [(other, [x61], [x02])] /\ for_app 1 (snd (sx_run evs2)) = [(other, [x61], [x02])] /\
  ~ overflowed (snd (sx_run evs1)) /\ ~ overflowed (snd (sx_run evs2)) /\ ~ In (UCrash 0) (snd (sx_run evs1)) /\ ~ In (UCrash 0) (snd (sx_run evs2)).
Proof. exact C84_example_subscriber_pf. Qed.

