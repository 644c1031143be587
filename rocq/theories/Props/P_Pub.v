(** GENERATED by tools/gen_props.py from Proofs/T_Pub.v: statements only. *)

(** Publisher socket: C21, C24 .. C26, C33 .. C36, C45, C52 (publisher side), C57 (publisher), C63. *)
From Coq Require Import List NArith Sorting.Sorted.
From Verif Require Import Model.Base Model.Map Model.Stats Model.Framed Model.WirePubSub Model.WireAuth Model.Compression Model.Handshake Model.Trie Model.Utf8 Model.PubDriver
  Spec.Wire Spec.Stream Spec.AuthCuts Spec.Topics Spec.Utf8Spec Spec.ReqSpec Spec.PubSpec.
Import ListNotations.
Open Scope N_scope.
From Verif Require Import Proofs.T_Pub.

(** C33: in every history, the frames written on connection [cid] carry, one by one and in order, the published messages with the
    strictly increasing numbers [is] - so each at most once, in publish order - which were all "due" (read by this session
    when its filter contained their topic), with sequence numbers 0, 1, 2 ... (mod 2^32); and no due message is left out: it
    was written, or is just about to be, or the connection ended. *)
Theorem C33_in_order_no_duplicates :
  forall max buf min auth co evs s log cid,
  pb_run max buf min auth co pb_init evs = (s, log) ->
  exists is,
    StronglySorted N.lt is /\ Forall (due cid log) is /\
    Forall2 (fun i m => exists p, message log i = Some p /\ carries p m) is (sent_to cid log) /\
    map ps_seq (sent_to cid log) = map (fun k => N.of_nat k mod 2 ^ 32) (seq 0 (length (sent_to cid log))) /\
    (forall i, due cid log i -> In i is \/ about_to_be_sent s log cid i \/ In cid (sub_ended log)).
Proof. exact C33_in_order_no_duplicates_pf. Qed.
Print Assumptions C33_in_order_no_duplicates.

(** C33: "due" for a subscriber that only makes wildcard-free subscriptions: the session read the message when exactly its
    topic was subscribed on the connection. *)
Theorem C33_due_literal :
  forall max buf min auth co evs s log cid i,
  pb_run max buf min auth co pb_init evs = (s, log) -> subs_all literal (ops_of cid log) ->
  (due cid log i <-> exists before after p, log = before ++ QTook cid i :: after /\ message log i = Some p /\ held (ops_of cid before) (pm_topic p)).
Proof. exact C33_due_literal_pf. Qed.
Print Assumptions C33_due_literal.

Example C33_example :
  let r := pb_run None 4 100 None None pb_init px_hist in
  map (fun m => (ps_topic m, ps_payload m, ps_seq m)) (sent_to 0 (snd r)) = [([x61], [x01], 0); ([x61], [x03], 1)] /\
  ops_of 0 (snd r) = [TSub [x61]] /\ In (QTook 0 1) (snd r) /\ sub_live (snd r) = [0].
Proof. exact C33_example_pf. Qed.

(** C34: in every history, each message published while connection [cid]'s session exists was read by it, or skipped when it
    lagged, or is still unread (the session is running and reads messages in order), or the connection ended. *)
Theorem C34_every_message_accounted_for :
  forall max buf min auth co evs s log cid before after i,
  pb_run max buf min auth co pb_init evs = (s, log) -> log = before ++ QOpen cid :: after ->
  blen (published before) <= i < blen (published log) ->
  In (QTook cid i) log \/ (exists x y, In (QSkipped cid x y) log /\ x <= i < y) \/
  (exists x, mget cid (pb_sess s) = Some x /\ sn_pos x <= i) \/ In cid (sub_ended log).
Proof. exact C34_every_message_accounted_for_pf. Qed.
Print Assumptions C34_every_message_accounted_for.

(** C34: in every history, when a session skips the messages [x] .. [y-1], more than session_buffer_size messages were waiting for it
    (all from [x] on), and the ones lost are the oldest: exactly the newest [bcast_cap buf] >= session_buffer_size ones are
    kept; everything the session read before is older than [x], everything it reads later is at least [y]. *)
Theorem C34_only_lag_skips_the_oldest :
  forall max buf min auth co evs s log cid before after x y,
  pb_run max buf min auth co pb_init evs = (s, log) -> log = before ++ QSkipped cid x y :: after ->
  x < y /\ buf < blen (published before) - x /\ y + bcast_cap buf = blen (published before) /\ buf <= bcast_cap buf /\
  (forall i, In (QTook cid i) before -> i < x) /\ (forall i, In (QTook cid i) after -> y <= i).
Proof. exact C34_only_lag_skips_the_oldest_pf. Qed.
Print Assumptions C34_only_lag_skips_the_oldest.

Example C34_example :
  let r := pb_run None 2 100 None None pb_init
     ([WAccept; WConn 0 (Some true); WSession 0 (px_env (px_sub [x2a]))] ++ map (fun b => WPublish [x61] [b]) [x01; x02; x03; x04; x05] ++ px_idle 7 0) in
  In (QSkipped 0 0 3) (snd r) /\ map ps_payload (sent_to 0 (snd r)) = [[x04]; [x05]] /\ bcast_cap 2 = 2.
Proof. exact C34_example_pf. Qed.

(** C35 is violated: after a frame that is no control message (here: topic "x", payload "y") the session goes on; a message published later is still
    sent to the subscriber. *)
Theorem C35_malformed_control_refuted :
  exists m evs s log,
  msg_to_control m = None /\ pb_run None 4 100 None None pb_init evs = (s, log) /\ In (QControl 0 m None) log /\
  sub_ended log = [] /\ mget 0 (pb_sess s) <> None /\
  (exists before after f, log = before ++ QControl 0 m None :: after /\ In (QHanded 0 f true) after).
Proof. exact C35_malformed_control_refuted_pf. Qed.
Print Assumptions C35_malformed_control_refuted.

(** C35 (what holds): a frame is taken for a control message exactly if it has no payload and its topic starts with
    "MSG.SUB." or "MSG.UNSUB."; any other frame leaves the session running with an unchanged filter, position and sequence number. *)
Theorem C35_malformed_ignored_partial :
  (forall m, msg_to_control m = None <->
     ps_payload_size m <> 0 \/ (forall t, ps_topic m <> sub_prefix ++ t) /\ (forall t, ps_topic m <> unsub_prefix ++ t)) /\
  (forall max buf min auth co s cid e x m,
     mget cid (pb_sess s) = Some x -> sn_pending x = None -> sn_pos x = blen (pb_hist s) -> pb_closed s = false ->
     s_ready e = true -> s_next e = PnMsg m -> msg_to_control m = None ->
     let (s', new) := pb_act max buf min auth co s (WSession cid e) in
     new = [QControl cid m None] /\
     exists fl, mget cid (pb_sess s') = Some (mkSess (sn_seq x) (sn_pos x) None (sn_filter x) fl)).
Proof. exact C35_malformed_ignored_partial_pf. Qed.
Print Assumptions C35_malformed_ignored_partial.

(** C36: for every topic [t] that is valid UTF-8 of at most 65525 bytes, subscribe(t) and unsubscribe(t) produce a frame that the
    decoder gives back and that the publisher understands as subscribe / unsubscribe of exactly [t]. *)
Theorem C36_control_messages_mean_the_topic :
  forall now t, utf8 t -> blen t <= 65525 -> now < 2 ^ 64 ->
  (exists m, ps_new_sub now t = Some m /\ (forall rest, ps_decode PSHeader (ps_encode m ++ rest) = DMsg m PSHeader rest) /\ msg_to_control m = Some (TSub t)) /\
  (exists m, ps_new_unsub now t = Some m /\ (forall rest, ps_decode PSHeader (ps_encode m ++ rest) = DMsg m PSHeader rest) /\ msg_to_control m = Some (TUnsub t)).
Proof. exact C36_control_messages_mean_the_topic_pf. Qed.
Print Assumptions C36_control_messages_mean_the_topic.

(** C36: in every history, the subscriptions carried out for a connection are those its control frames mean (so `ops_of` is what the subscriber asked). *)
Theorem C36_operations_are_those_received :
  forall max buf min auth co evs s log cid m o,
  pb_run max buf min auth co pb_init evs = (s, log) -> In (QControl cid m o) log -> o = msg_to_control m.
Proof. exact C36_operations_are_those_received_pf. Qed.
Print Assumptions C36_operations_are_those_received.

Example C36_example :
  utf8 [xc3; xa9; x2e; x61] /\ px_sub [xc3; xa9; x2e; x61] <> PnPending /\
  ops_of 0 (snd (pb_run None 4 100 None None pb_init [WAccept; WConn 0 (Some true); WSession 0 (px_env (px_sub [xc3; xa9; x2e; x61])); WSession 0 (px_env (px_unsub [x61]))]))
  = [TSub [xc3; xa9; x2e; x61]; TUnsub [x61]].
Proof. exact C36_example_pf. Qed.

(** C45 (publisher) is violated: publishing a topic of 65536 bytes is accepted and makes the task of every session subscribed to it panic: the
    subscriber's connection is lost. *)
Theorem C45_publish_oversized_topic_refuted :
  exists topic, blen topic = 2 ^ 16 /\
  let r := pb_run None 4 100 None None pb_init
    ([WAccept; WConn 0 (Some true); WSession 0 (px_env (px_sub [x2a])); WPublish topic [x01]] ++ px_idle 1 0) in
  map (fun m => (blen (pm_topic m), om_payload (pm_body m))) (published (snd r)) = [(2 ^ 16, [x01])] /\
  flat_map (fun x => match x with QCrashed c => [c] | _ => [] end) (snd r) = [0] /\ mget 0 (pb_sess (fst r)) = None.
Proof. exact C45_publish_oversized_topic_refuted_pf. Qed.
Print Assumptions C45_publish_oversized_topic_refuted.

(** C45 (publisher; what holds): in every history a session task crashes only right after reading a published message whose topic has at
    least 65536 bytes; so with shorter topics there is never a crash. *)
Theorem C45_publish_crash_only_oversized_partial :
  forall max buf min auth co evs s log before cid after,
  pb_run max buf min auth co pb_init evs = (s, log) -> log = before ++ QCrashed cid :: after ->
  exists b i p, before = b ++ [QTook cid i] /\ message log i = Some p /\ 2 ^ 16 <= blen (pm_topic p).
Proof. exact C45_publish_crash_only_oversized_partial_pf. Qed.
Print Assumptions C45_publish_crash_only_oversized_partial.

Example C45_example :
  let topic := repeat x61 (N.to_nat (2 ^ 16 - 1)) in
  let r := pb_run None 4 100 None None pb_init
    ([WAccept; WConn 0 (Some true); WSession 0 (px_env (px_sub [x2a])); WPublish topic [x01]] ++ px_idle 3 0) in
  map ps_payload (sent_to 0 (snd r)) = [[x01]] /\ sub_ended (snd r) = [].
Proof. exact C45_example_pf. Qed.

(** C52: a valid UTF-8 string is unchanged by the decoding the sockets apply to topics (String::from_utf8_lossy), and the result of
    that decoding is valid UTF-8 for every byte sequence. *)
Theorem C52_topics_survive_decoding :
  (forall b, utf8 b -> from_utf8_lossy b = b) /\ (forall b, utf8 (from_utf8_lossy b)).
Proof. exact C52_topics_survive_decoding_pf. Qed.
Print Assumptions C52_topics_survive_decoding.

Example C52_example :
  utf8 [x61; xf0; x9f; x98; x80] /\ from_utf8_lossy [x61; xff; x62; xe2; x82] = [x61; xef; xbf; xbd; x62; xef; xbf; xbd] /\ ~ utf8 [xff].
Proof. exact C52_example_pf. Qed.

(** C24 (publisher): with max_clients = m, in every history at most m connections are being established or live at any time. *)
Theorem C24_publisher_max_clients :
  forall m buf min auth co evs s log,
  m < 2 ^ 64 -> pb_run (Some m) buf min auth co pb_init evs = (s, log) -> blen (sub_live log) <= m.
Proof. exact C24_publisher_max_clients_pf. Qed.
Print Assumptions C24_publisher_max_clients.

Example C24_publisher_example :
  let r := pb_run (Some 2) 4 100 None None pb_init (px_hist ++ [WAccept; WAccept; WSession 0 (px_env PnEof); WAccept]) in
  sub_live (snd r) = [1; 2] /\ In QRefused (snd r) /\ In (QGone 0) (snd r).
Proof. exact C24_publisher_example_pf. Qed.

(** C25 (publisher) is violated: a client whose handshake makes the auth task panic is never subtracted: active_clients is 1 too large
    for ever. *)
Theorem C25_publisher_active_clients_refuted :
  exists accept_all,
  let r := pb_run None 4 100 (Some accept_all) None pb_init
       [WAccept; WConn 0 (Some true); WAuth 0 [IoData [x01; x00; x00; x00; x05; x41]] true] in
  sub_live (snd r) = [] /\ pb_active (fst r) = 1.
Proof. exact C25_publisher_active_clients_refuted_pf. Qed.
Print Assumptions C25_publisher_active_clients_refuted.

(** C25 (publisher; exact law): active_clients is the number of connections being established or live plus the number of those lost in an auth-task
    panic, so it is right if there were none. *)
Theorem C25_publisher_active_clients_partial :
  forall max buf min auth co evs s log,
  pb_run max buf min auth co pb_init evs = (s, log) -> blen (sub_live log) + blen (sub_leaked log) < 2 ^ 64 ->
  pb_active s = blen (sub_live log) + blen (sub_leaked log).
Proof. exact C25_publisher_active_clients_partial_pf. Qed.
Print Assumptions C25_publisher_active_clients_partial.

Example C25_publisher_example :
  let r := pb_run None 4 100 None None pb_init (px_hist ++ [WAccept; WConn 0 None; WAccept; WConn 0 (Some true); WSession 0 (px_env PnEof)]) in
  sub_live (snd r) = [2] /\ sub_leaked (snd r) = [] /\ pb_active (fst r) = 1.
Proof. exact C25_publisher_example_pf. Qed.

(** C26 (publisher): with an authenticator [a], in every history: whatever a session does - honour a control frame, read a published
    message, write a frame - is preceded on its connection by a handshake in which the client sent an auth frame with a token that [a] accepted. *)
Theorem C26_publisher_only_authenticated :
  forall max buf min a co evs s log before x after cid,
  pb_run max buf min (Some a) co pb_init evs = (s, log) -> log = before ++ x :: after ->
  match x with QOpen c | QControl c _ _ | QTook c _ | QSkipped c _ _ | QHanded c _ _ => c = cid | _ => False end ->
  exists input token frame rest, In (QAuthed cid input token) before /\ a token = true /\
    auth_frame token frame /\ received input = frame ++ rest.
Proof. exact C26_publisher_only_authenticated_pf. Qed.
Print Assumptions C26_publisher_only_authenticated.

(** C26 (publisher): in every history, the bytes a handshake writes are the ack frame 01 01, followed by the session being opened, or (nothing
    or) the reject frame 01 00, followed by the connection's end; and after a connection's end nothing is ever received from it or written to it. *)
Theorem C26_publisher_rejected_dropped :
  forall max buf min auth co evs s log,
  pb_run max buf min auth co pb_init evs = (s, log) ->
  (forall before c w after, log = before ++ QAuthReply c w :: after ->
     (exists input token more, after = [QAuthed c input token; QOpen c] ++ more /\ w = [x01; x01]) \/
     (exists more, after = QGone c :: more /\ (w = [] \/ w = [x01; x00]))) /\
  (forall before x after c, log = before ++ x :: after -> sub_acts_on c x -> ~ In c (sub_ended before)).
Proof. exact C26_publisher_rejected_dropped_pf. Qed.
Print Assumptions C26_publisher_rejected_dropped.

(** C26 (publisher): in every state with a pending handshake on connection [cid], if the client's auth frame arrives with a token [a] rejects (in
    pieces that do not crash the auth codec, C03; writes succeed), the client receives exactly the reject frame 01 00 and its connection is
    dropped; if [a] accepts it, it receives the ack frame 01 01 and a session is started. *)
Theorem C26_publisher_verdict :
  forall max buf min a co s k cid token frame input,
  nth_error (pb_auths s) k = Some cid ->
  auth_frame token frame -> Forall delivery input -> received input = frame -> existsb (fatal_cut (blen token)) (cuts 0 input) = false ->
  let (s', new) := pb_act max buf min (Some a) co s (WAuth k input true) in
  if a token then new = [QAuthReply cid [x01; x01]; QAuthed cid input token; QOpen cid] /\ mget cid (pb_sess s') <> None
  else new = [QAuthReply cid [x01; x00]; QGone cid] /\ pb_sess s' = pb_sess s /\ pb_auths s' = firstn k (pb_auths s) ++ skipn (S k) (pb_auths s).
Proof. exact C26_publisher_verdict_pf. Qed.
Print Assumptions C26_publisher_verdict.

Example C26_publisher_example :
  let a := (fun t => match t with [x41] => true | _ => false end) in
  let auth_of t := [IoData (fst (au_encode au_client (AuthM t)))] in
  let r := pb_run None 4 100 (Some a) None pb_init
       [WAccept; WConn 0 (Some true); WAccept; WConn 0 (Some true); WAuth 0 (auth_of [x41]) true; WAuth 0 (auth_of [x42]) true;
        WSession 0 (px_env (px_sub [x61])); WSession 1 (px_env (px_sub [x61]))] in
  sub_live (snd r) = [0] /\ In (QAuthReply 0 [x01; x01]) (snd r) /\ In (QAuthReply 1 [x01; x00]) (snd r) /\ ops_of 0 (snd r) = [TSub [x61]] /\ ops_of 1 (snd r) = [].
Proof. exact C26_publisher_example_pf. Qed.

(** C21 (publisher) is violated: bytes_tx is too small by one byte (the wire id) for every frame. *)
Theorem C21_publisher_bytes_tx_refuted :
  let r := pb_run None 4 100 None None pb_init px_hist in
  pb_tx (fst r) = 42 /\ sum_len (map ps_encode (sent_frames (snd r))) = 44.
Proof. exact C21_publisher_bytes_tx_refuted_pf. Qed.
Print Assumptions C21_publisher_bytes_tx_refuted.

(** C21 (publisher; exact law): in every history, bytes_tx + number of frames taken by connections = number of bytes of their encodings (payloads below
    4 GiB). *)
Theorem C21_publisher_bytes_partial :
  forall max buf min auth co evs s log,
  pb_run max buf min auth co pb_init evs = (s, log) ->
  (forall m, In m (sent_frames log) -> blen (ps_payload m) < 2 ^ 32) ->
  pb_tx s + N.of_nat (length (sent_frames log)) = sum_len (map ps_encode (sent_frames log)).
Proof. exact C21_publisher_bytes_partial_pf. Qed.
Print Assumptions C21_publisher_bytes_partial.

(** C57 (publisher): (1) from every reachable state, if a poll of the session of [cid] is still running after the iterations [es], their number is
    at most twice the number of unread messages, plus one for a frame waiting to be written, plus the number of frames that arrived during the
    poll; (2) a poll of the publisher's driver is still running only within twice the pending accepts plus the pending handshakes plus three times
    the connections arriving during the poll.  So without new events both return. *)
Theorem C57_publisher_poll_returns :
  forall max buf min auth co evs s log,
  pb_run max buf min auth co pb_init evs = (s, log) ->
  (forall cid es s' new, mget cid (pb_sess s) <> None -> sn_poll buf cid es s = (s', new, None) ->
     (length es <= sess_work cid s + length (filter (fun e => is_frame (s_next e)) es))%nat) /\
  (forall ds s' new, pb_poll max auth ds s = (s', new, false) ->
     (length ds <= 2 * length (pb_conns s) + length (pb_auths s) + 3 * length (filter b_accept ds))%nat).
Proof. exact C57_publisher_poll_returns_pf. Qed.
Print Assumptions C57_publisher_poll_returns.

Example C57_publisher_example :
  let s := fst (pb_run None 4 100 None None pb_init (firstn 6 px_hist)) in
  sess_work 0 s = 6%nat /\ snd (sn_poll 4 0 (repeat (px_env PnPending) 6) s) = Some SPend /\ snd (sn_poll 4 0 (repeat (px_env PnPending) 5) s) = None.
Proof. exact C57_publisher_example_pf. Qed.

(** C63: in every history, when a session's poll goes idle (returns Pending) and its connection accepted writes whenever asked during the poll,
    the session is up to date: all messages published since it was opened have been read or skipped by lagging, every due one has been written,
    and - if the flush timer and the flush itself were ready - the connection has been flushed. *)
Theorem C63_idle_session_up_to_date :
  forall max buf min auth co evs s log cid es s' new,
  pb_run max buf min auth co pb_init evs = (s, log) -> sn_poll buf cid es s = (s', new, Some SPend) ->
  (forall e, In e es -> s_ready e = true) ->
  (forall before after i, log ++ new = before ++ QOpen cid :: after -> blen (published before) <= i < blen (published (log ++ new)) ->
     In (QTook cid i) (log ++ new) \/ (exists x y, In (QSkipped cid x y) (log ++ new) /\ x <= i < y)) /\
  (forall i, due cid (log ++ new) i -> exists m p, In m (sent_to cid (log ++ new)) /\ message (log ++ new) i = Some p /\ carries p m) /\
  ((forall e, In e es -> s_tick e = true /\ s_flush_ok e = true) -> exists x, mget cid (pb_sess s') = Some x /\ sn_flush x = false).
Proof. exact C63_idle_session_up_to_date_pf. Qed.
Print Assumptions C63_idle_session_up_to_date.

Example C63_example :
  let r := pb_run None 4 100 None None pb_init (firstn 6 px_hist) in
  let q := sn_poll 4 0 (repeat (px_env PnPending) 6) (fst r) in
  snd q = Some SPend /\ sent_to 0 (snd r) = [] /\ map ps_payload (sent_to 0 (snd r ++ snd (fst q))) = [[x01]; [x03]].
Proof. exact C63_example_pf. Qed.

(** C63 (flushing): a frame written on connection [cid] is flushed: after the step that wrote it, the session considers itself flushed
    (and an idle session is made so by C63_idle_session_up_to_date, given a chance to flush) only if there was, later, a turn of the session in
    which the flush timer had fired and the connection's flush succeeded. *)
Theorem C63_written_frames_flushed :
  forall max buf min auth co evs s log ev s1 o more s2 log2 cid m x,
  pb_run max buf min auth co pb_init evs = (s, log) -> pb_act max buf min auth co s ev = (s1, o) -> In (QHanded cid m true) o ->
  pb_run max buf min auth co s1 more = (s2, log2) -> mget cid (pb_sess s2) = Some x -> sn_flush x = false ->
  exists e, In (WSession cid e) more /\ s_tick e && s_flush_ok e = true.
Proof. exact C63_written_frames_flushed_pf. Qed.
Print Assumptions C63_written_frames_flushed.

(** C64 (publisher driver): when a poll of the driver ends in Pending, then in its last pass the listener had nothing to accept, none of the
    pending accepts was ready, and none of the pending handshakes was (except one whose task panicked: that one is passed over). *)
Theorem C64_publisher_driver_sleeps_only_when_idle :
  forall max auth ds s s' new,
  pb_poll max auth ds s = (s', new, true) ->
  exists before d rest, ds = before ++ d :: rest /\
  b_accept d = false /\
  (forall k r, b_conn d = Some (k, r) -> nth_error (pb_conns s') k = None) /\
  (forall k i b, b_auth d = Some (k, i, b) -> nth_error (pb_auths s') k = None \/ (exists c, In (QPanicked c) new) \/
     (forall a, auth = Some a -> fst (fst (auth_server a b i)) = AuthRunning)).
Proof. exact C64_publisher_driver_sleeps_only_when_idle_pf. Qed.
Print Assumptions C64_publisher_driver_sleeps_only_when_idle.

Example C64_publisher_example :
  let d := mkBenv None None true in let c := mkBenv None (Some (0%nat, Some true)) false in let q := mkBenv None None false in
  let r := pb_poll None None [d; c; d; c; q] pb_init in
  snd r = true /\ snd (fst r) = [QAccepted 0; QOpen 0; QAccepted 1; QOpen 1].
Proof. exact C64_publisher_example_pf. Qed.

(** C83 (publisher): when the PubSocket was dropped, the session of every subscriber ends, however the tasks are scheduled and whatever
    else happens: at the latest at the n-th poll at which its connection can take a frame, where n counts two for each message it has not
    looked at, one for a frame to be written, and one. *)
Theorem C83_publisher_sessions_end :
  forall max buf min auth co evs s log cid x more s' new,
  pb_run max buf min auth co pb_init evs = (s, log) -> pb_closed s = true -> mget cid (pb_sess s) = Some x ->
  pb_run max buf min auth co s more = (s', new) -> (sess_work cid s < ready_polls cid more)%nat -> In cid (sub_ended new).
Proof. exact C83_publisher_sessions_end_pf. Qed.
Print Assumptions C83_publisher_sessions_end.

(** C83 (publisher): and when it ends because of that, it has served its subscriber: every message published since it started was looked
    at or had been pushed out of the buffer, and each that was due to the subscriber was written. *)
Theorem C83_publisher_last_messages_delivered :
  forall max buf min auth co evs s log cid x e s' new,
  pb_run max buf min auth co pb_init evs = (s, log) -> pb_closed s = true -> mget cid (pb_sess s) = Some x ->
  pb_act max buf min auth co s (WSession cid e) = (s', new) -> s_ready e = true -> s_send e = true -> In (QGone cid) new ->
  (forall before after i, log = before ++ QOpen cid :: after -> blen (published before) <= i < blen (published log) ->
     In (QTook cid i) log \/ (exists x y, In (QSkipped cid x y) log /\ x <= i < y)) /\
  (forall i, due cid log i -> exists m p, In m (sent_to cid log) /\ message log i = Some p /\ carries p m).
Proof. exact C83_publisher_last_messages_delivered_pf. Qed.
Print Assumptions C83_publisher_last_messages_delivered.

(** C83 (publisher), refuted for the driver and for a subscriber that does not read: the driver never notices that the socket was dropped -
    it goes on accepting connections, as before, and starts sessions for them -, and a session whose connection takes no frame
    never ends, for any number of polls. *)
Theorem C83_publisher_drop_refuted :
  (forall max s, fst (pb_accept max s) <> s \/ snd (pb_accept max s) = [QRefused]) /\
  (exists evs1 evs2 log1 log2 s1 s2, pb_run None 4 100 None None pb_init evs1 = (s1, log1) /\ In QClosed log1 /\
     pb_run None 4 100 None None s1 evs2 = (s2, log2) /\ In (QAccepted 1) log2 /\ In (QOpen 1) log2) /\
  (exists evs s log, pb_run None 4 100 None None pb_init evs = (s, log) /\ pb_closed s = true /\
     forall es, Forall (fun e => s_ready e = false) es ->
       exists s' x, pb_run None 4 100 None None s (map (WSession 0) es) = (s', []) /\ mget 0 (pb_sess s') = Some x).
Proof. exact C83_publisher_drop_refuted_pf. Qed.
Print Assumptions C83_publisher_drop_refuted.

(** Messages 1 and 3 of the history of C33 are still to be delivered when the socket is dropped; then the session ends. *)
Example C83_publisher_example :
  let r := pb_run None 4 100 None None pb_init (firstn 6 px_hist ++ [WClose]) in
  let q := pb_run None 4 100 None None (fst r) (px_idle 7 0) in
  pb_closed (fst r) = true /\ sess_work 0 (fst r) = 6%nat /\ ready_polls 0 (px_idle 7 0) = 7%nat /\ sent_to 0 (snd r) = [] /\
  map ps_payload (sent_to 0 (snd q)) = [[x01]; [x03]] /\ sub_ended (snd q) = [0].
Proof. exact C83_publisher_example_pf. Qed.

