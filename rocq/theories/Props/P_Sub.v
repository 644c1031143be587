(** GENERATED by tools/gen_props.py from Proofs/T_Sub.v: statements only. *)

(** Subscriber socket: C37 .. C48, C57, C64, C65 (subscriber side). *)
From Coq Require Import List NArith Permutation.
From Verif Require Import Model.Base Model.Map Model.Stats Model.Framed Model.WirePubSub Model.WireAuth Model.Compression Model.Handshake Model.Utf8 Model.Backoff Model.JoinMap Model.PubDriver Model.SubDriver
  Spec.Utf8Spec Spec.BackoffSpec Spec.ReqSpec Spec.SubSpec.
Import ListNotations.
Open Scope N_scope.
From Verif Require Import Proofs.T_Sub.

(** C37 (what holds): in every history the commands the driver processed, followed by those waiting in the command channel, are the
    successful calls in order (plus the shutdown on drop); a session takes the commands sent to it in order; each command it takes gives at most one frame,
    and no other frames are written; and if the connection never refused a frame for the moment (no back-pressure), the frames
    are in the order of the commands. *)
Theorem C37_order_holds_without_back_pressure_partial :
  forall token ingress initial D evs s log cid,
  sb_run token ingress initial D sb_init evs = (s, log) ->
  (exists tail, commands log ++ sb_cmdq s = flat_map meaning (calls log) ++ tail /\ (tail = [] \/ tail = [CShutdown] /\ In UDropped log)) /\
  (exists rest, enqueued cid log = got cid log ++ rest) /\
  (exists unsent, Permutation (map ps_topic (wired cid log) ++ unsent) (map ctl_topic (got cid log))) /\
  (~ In (UBusy cid) log -> exists unsent, map ps_topic (wired cid log) ++ unsent = map ctl_topic (enqueued cid log)).
Proof. exact C37_order_holds_without_back_pressure_partial_pf. Qed.
Print Assumptions C37_order_holds_without_back_pressure_partial.

(** C37 is violated: subscribe("a"), then unsubscribe("a"), while the connection is not ready for writing: the session puts the frame it could
    not write at the end of its queue, so the publisher gets the unsubscribe first and the subscribe last (and stays subscribed). *)
Theorem C37_commands_reordered_refuted :
  let r := sx_run [YApi (ApConnect true (Some sx_addr)); YCommand; YJoin 0 (JConn true []) []; YApi (ApSub true [x61]); YCommand;
                   YSess 0 sx_stuck; YApi (ApUnsub true [x61]); YCommand; YSess 0 sx_stuck; YSess 0 sx_stuck; YSess 0 (sx_env PnPending)] in
  calls (snd r) = [ApConnect true (Some sx_addr); ApSub true [x61]; ApUnsub true [x61]] /\
  enqueued 0 (snd r) = [SSub [x61]; SUnsub [x61]] /\
  map ps_topic (wired 0 (snd r)) = [unsub_prefix ++ [x61]; sub_prefix ++ [x61]].
Proof. exact C37_commands_reordered_refuted_pf. Qed.
Print Assumptions C37_commands_reordered_refuted.

Example C37_example :
  let r := sx_run (sx_open ++ [YApi (ApSub true [x62]); YApi (ApUnsub false [x61]); YCommand; YCommand] ++ repeat (YSess 0 (sx_env PnPending)) 6) in
  calls (snd r) = [ApSub true [x61]; ApConnect true (Some sx_addr); ApSub true [x62]; ApUnsub false [x61]] /\
  map ps_topic (wired 0 (snd r)) = [sub_prefix ++ [x61]; sub_prefix ++ [x62]; unsub_prefix ++ [x61]].
Proof. exact C37_example_pf. Qed.

(** C38 (what holds): in every history, when a connection is established, the topics subscribed at that time are, in some order, sent to its
    session at once: the first 64 of them are passed on, the others are refused because its command channel is full. *)
Theorem C38_first_64_topics_partial :
  forall token ingress initial D evs s before after cid a,
  sb_run token ingress initial D sb_init evs = (s, before ++ UOpen cid a :: after) ->
  exists ts rest, NoDup ts /\ (forall t, In t ts <-> subscribed (commands before) t) /\
    after = map (fun t => UTry cid (SSub t) TSent) (firstn 64 ts) ++ map (fun t => UTry cid (SSub t) TFull) (skipn 64 ts) ++ rest.
Proof. exact C38_first_64_topics_partial_pf. Qed.
Print Assumptions C38_first_64_topics_partial.

(** C38 is violated: with 65 subscribed topics, the newly connected publisher gets only 64 of the subscriptions: one is dropped, and is not sent later. *)
Theorem C38_65th_topic_lost_refuted :
  let topic := fun n => repeat x61 n in
  let r := sx_run (map (fun n => YApi (ApSub true (topic n))) (seq 1 65) ++ repeat YCommand 65 ++
                   [YApi (ApConnect true (Some sx_addr)); YCommand; YJoin 0 (JConn true []) (map topic (seq 1 65))] ++ repeat (YSess 0 (sx_env PnPending)) 200) in
  map ctl_topic (enqueued 0 (snd r)) = map (fun n => sub_prefix ++ topic n) (seq 1 64) /\
  map ps_topic (wired 0 (snd r)) = map (fun n => sub_prefix ++ topic n) (seq 1 64) /\
  flat_map (fun x => match x with UTry _ (SSub t) TFull => [t] | _ => [] end) (snd r) = [topic 65%nat] /\ subscribed (commands (snd r)) (topic 65%nat) /\ session_work 0 (fst r) = 0%nat.
Proof. exact C38_65th_topic_lost_refuted_pf. Qed.
Print Assumptions C38_65th_topic_lost_refuted.

Example C38_example :
  let r := sx_run ([YApi (ApSub true [x61]); YApi (ApSub true [x62]); YApi (ApUnsub true [x61])] ++ skipn 1 sx_open ++ [YCommand; YCommand; YJoin 0 (JConn true []) []]) in
  enqueued 0 (snd r) = [SSub [x62]] /\ tried 0 (snd r) = [SSub [x62]].
Proof. exact C38_example_pf. Qed.

(** C39: in every history, the set of topics the driver knows is the set of topics subscribed by the processed commands; the commands sent to the
    session of a connection the driver holds are exactly: one subscribe for each topic subscribed when it was opened, and then one command for each
    processed command that changes the set; and a connection the driver has dropped gets no command any more. *)
Theorem C39_subscriptions_are_a_set :
  forall token ingress initial D evs s log,
  sb_run token ingress initial D sb_init evs = (s, log) ->
  NoDup (sb_topics s) /\ (forall t, In t (sb_topics s) <-> subscribed (commands log) t) /\
  (forall cid a, In (UOpen cid a) log -> ~ driver_closed cid log -> exists before after ts,
     log = before ++ UOpen cid a :: after /\ NoDup ts /\ (forall t, In t ts <-> subscribed (commands before) t) /\
     tried cid log = map SSub ts ++ changes ts (commands after)) /\
  (forall before cid c r after, log = before ++ UTry cid c r :: after -> ~ driver_closed cid before).
Proof. exact C39_subscriptions_are_a_set_pf. Qed.
Print Assumptions C39_subscriptions_are_a_set.

Example C39_example :
  let r := sx_run (sx_open ++ map YApi [ApSub true [x61]; ApSub true [x62]; ApUnsub true [x63]; ApUnsub true [x61]; ApSub true [x62]] ++ repeat YCommand 5) in
  tried 0 (snd r) = [SSub [x61]; SSub [x62]; SUnsub [x61]] /\ sb_topics (fst r) = [[x62]].
Proof. exact C39_example_pf. Qed.

(** C40 (what holds): if no connection attempt for the endpoint is in progress when the driver processes the disconnect, then, until connect() is called again,
    nothing from it is passed on any more, no connection to it is started or established, the application gets only messages that had been passed to the socket before, and
    its statistics are gone (unless the driver had given up on this endpoint before). *)
Theorem C40_disconnect_without_attempt_in_progress_partial :
  forall token ingress initial D evs s before after a,
  sb_run token ingress initial D sb_init evs = (s, before ++ UCmd (CDisconnect a) :: after) ->
  attempts a before = attempts_ended a before -> ~ In (CConnect a) (commands after) ->
  (forall cid m p r, ~ In (UDeliver cid m a p r) after) /\ (forall cid, ~ In (UOpen cid a) after) /\ ~ In (UConnect a) after /\
  (forall cid t p, In (UYield cid a t p) after -> In (cid, a, t, p) (queued before)) /\
  (~ In (UGaveUp a) before -> sb_bytes_rx a s = None /\ sb_latency a s = None).
Proof. exact C40_disconnect_without_attempt_in_progress_partial_pf. Qed.
Print Assumptions C40_disconnect_without_attempt_in_progress_partial.

(** C40 is violated (connection attempt in progress): disconnect() while connecting does not stop the attempt: it succeeds, a session is started, and its messages are delivered. *)
Theorem C40_connect_in_progress_refuted :
  let r := sx_run ([YApi (ApSub true [x61]); YApi (ApConnect true (Some sx_addr)); YCommand; YCommand; YApi (ApDisconnect true (Some sx_addr)); YCommand] ++
                   [YJoin 0 (JConn true []) []; YSess 0 (sx_env (sx_msg x00 [x07])); YEntry sx_addr 10; YTake]) in
  exists before after, snd r = before ++ UCmd (CDisconnect sx_addr) :: after /\ commands after = [] /\ yielded 0 after = [(sx_addr, [x61], [x07])] /\
  sb_bytes_rx sx_addr (fst r) = Some 1.
Proof. exact C40_connect_in_progress_refuted_pf. Qed.
Print Assumptions C40_connect_in_progress_refuted.

(** C40 is violated (messages already received): a message that was received but not yet taken by the application is still delivered after the disconnect. *)
Theorem C40_queued_message_refuted :
  let r := sx_run (sx_open ++ [YSess 0 (sx_env (sx_msg x00 [x07])); YEntry sx_addr 10; YApi (ApDisconnect true (Some sx_addr)); YCommand] ++ [YTake]) in
  exists before, snd r = before ++ [UCmd (CDisconnect sx_addr); UClosed 0 []; UYield 0 sx_addr [x61] [x07]].
Proof. exact C40_queued_message_refuted_pf. Qed.
Print Assumptions C40_queued_message_refuted.

Example C40_example :
  let r := sx_run (sx_open ++ [YSess 0 (sx_env (sx_msg x00 [x07])); YEntry sx_addr 10; YTake; YSess 0 (sx_env (sx_msg x00 [x08])); YApi (ApDisconnect true (Some sx_addr)); YCommand;
                   YEntry sx_addr 20; YSess 0 (sx_env (sx_msg x00 [x09])); YTake]) in
  yielded 0 (snd r) = [(sx_addr, [x61], [x07])] /\ attempts sx_addr (snd r) = 1%nat /\ attempts_ended sx_addr (snd r) = 1%nat /\ driver_closed 0 (snd r) /\ sb_bytes_rx sx_addr (fst r) = None.
Proof. exact C40_example_pf. Qed.

(** C41 is violated: a session never ends because of its connection: whatever the connection answers (in particular: the end of the stream, from now on and for ever), as long as the application does
    not disconnect and the session does not crash on an oversized topic, the session does not end, and the driver does not drop the connection, reset the
    publisher or start a new connection attempt. *)
Theorem C41_lost_publisher_not_noticed_refuted :
  forall token ingress initial D evs1 s1 log1 cid a evs2 s2 log2,
  sb_run token ingress initial D sb_init evs1 = (s1, log1) -> In (UOpen cid a) log1 -> ~ session_ended cid log1 -> ~ driver_closed cid log1 ->
  sb_run token ingress initial D s1 evs2 = (s2, log2) -> ~ In (CDisconnect a) (commands log2) -> ~ In (UCrash cid) log2 ->
  ~ In (UEnd cid) log2 /\ ~ driver_closed cid log2 /\ ~ In (UReset a) log2 /\ ~ In (UConnect a) log2.
Proof. exact C41_lost_publisher_not_noticed_refuted_pf. Qed.
Print Assumptions C41_lost_publisher_not_noticed_refuted.

(** C41 is violated, concretely: the publisher closes the connection; the session sees the end of the stream (then errors), is polled again and again, the driver too, much later: nothing happens. *)
Theorem C41_eof_ignored_refuted :
  let r := sx_run (sx_open ++ repeat (YSess 0 (sx_env PnEof)) 5 ++ [YSess 0 (sx_env PnErr); YEntry sx_addr 1000000000000; YSess 0 (sx_env PnEof); YEntry sx_addr 2000000000000]) in
  skipn 7 (snd r) = [UTry 0 (SSub [x61]) TSent; UGot 0 (SSub [x61]); UWire 0 (match ps_new_sub 5 [x61] with Some m => m | None => Build_ps_msg (Build_ps_header x00 0 [] 0 0 0) [] end) true; URecvErr 0] /\
  mget sx_addr (sb_pubs (fst r)) = Some (PActive 0).
Proof. exact C41_eof_ignored_refuted_pf. Qed.
Print Assumptions C41_eof_ignored_refuted.

(** C41 (what holds): once a session has ended (by crashing) and all its messages have been taken, the driver's next pass resets the publisher; and then, if no attempt
    is in progress and none has panicked, it starts a connection attempt as soon as it looks after the initial back-off. *)
Theorem C41_ended_session_is_redialled_partial :
  forall token ingress initial D evs s log cid a now,
  sb_run token ingress initial D sb_init evs = (s, log) -> In (UOpen cid a) log -> session_ended cid log -> ~ driver_closed cid log ->
  map tmsg_of (accepted cid log) = taken cid log ->
  exists s', sb_act token ingress initial D s (YEntry a now) = (s', [UClosed cid []; UReset a]) /\
    (attempts a log = attempts_ended a log -> ~ In (UTaskPanic a) log -> 2 * initial <= longest ->
     forall t1 t2, t1 + initial <= t2 -> In (UConnect a) (snd (sb_run token ingress initial D s' [YEntry a t1; YEntry a t2]))).
Proof. exact C41_ended_session_is_redialled_partial_pf. Qed.
Print Assumptions C41_ended_session_is_redialled_partial.

(** C41 (why it is not noticed): in every history a session task ends only after the driver has dropped the connection - never because the connection was closed or failed - or crashes, right after
    taking a command with an oversized topic. *)
Theorem C41_session_end_reasons_partial :
  forall token ingress initial D evs s log cid before after,
  sb_run token ingress initial D sb_init evs = (s, log) ->
  (log = before ++ UEnd cid :: after -> driver_closed cid before) /\
  (log = before ++ UCrash cid :: after -> exists c, In (UGot cid c) before /\ 2 ^ 16 <= blen (ctl_topic c)).
Proof. exact C41_session_end_reasons_partial_pf. Qed.
Print Assumptions C41_session_end_reasons_partial.

Example C41_example :
  let evs := sx_open ++ [YSess 0 (sx_env PnPending); YSess 0 (sx_env PnPending); YApi (ApSub true (repeat x61 (N.to_nat (2 ^ 16)))); YCommand; YSess 0 (sx_env PnPending)] in
  let r := sx_run evs in
  flat_map (fun x => match x with UCrash c => [c] | _ => [] end) (snd r) = [0] /\ accepted 0 (snd r) = [] /\ taken 0 (snd r) = [] /\ attempts sx_addr (snd r) = attempts_ended sx_addr (snd r) /\
  flat_map (fun x => match x with UClosed c _ => [inl c] | UReset a => [inr (inl a)] | UConnect a => [inr (inr a)] | _ => [] end) (skipn 14 (snd (sx_run (evs ++ [YEntry sx_addr 10; YEntry sx_addr 20; YEntry sx_addr 1020]))))
  = [inl 0; inr (inl sx_addr); inr (inr sx_addr)].
Proof. exact C41_example_pf. Qed.

(** C42 (what holds): whenever the driver goes to sleep, if in this poll it found no undecodable message on a connection, every message its session passed on has been taken. *)
Theorem C42_nothing_left_waiting_partial :
  forall token ingress initial D evs s log ds s' o cid a,
  sb_run token ingress initial D sb_init evs = (s, log) -> sb_poll token ingress initial D ds s = (s', o, true) ->
  In (UOpen cid a) (log ++ o) -> ~ driver_closed cid (log ++ o) -> (forall m, ~ In (UUndecodable cid m) o) ->
  map tmsg_of (accepted cid (log ++ o)) = taken cid (log ++ o).
Proof. exact C42_nothing_left_waiting_partial_pf. Qed.
Print Assumptions C42_nothing_left_waiting_partial.

(** C42 is violated: an undecodable message (compression type 9) is followed by a good one; the driver takes the first, makes no progress and goes to sleep with the second one still waiting. *)
Theorem C42_undecodable_message_stalls_refuted :
  let r := sx_run (sx_open ++ [YSess 0 (sx_env (sx_msg x09 [x01])); YSess 0 (sx_env (sx_msg x00 [x02]))]) in
  exists s' o, sb_poll None 4 1000 sx_D [mkYd 10 [sx_addr] None] (fst r) = (s', o, true) /\
  map ps_payload (accepted 0 (snd r ++ o)) = [[x01]; [x02]] /\ map tm_payload (taken 0 (snd r ++ o)) = [[x01]] /\ queued (snd r ++ o) = [].
Proof. exact C42_undecodable_message_stalls_refuted_pf. Qed.
Print Assumptions C42_undecodable_message_stalls_refuted.

Example C42_example :
  let r := sx_run (sx_open ++ [YSess 0 (sx_env (sx_msg x00 [x01])); YSess 0 (sx_env (sx_msg x00 [x02]))]) in
  exists s' o, sb_poll None 4 1000 sx_D (repeat (mkYd 10 [] None) 3) (fst r) = (s', o, true) /\ map tm_payload (taken 0 (snd r ++ o)) = [[x01]; [x02]] /\
  queued (snd r ++ o) = [(0, sx_addr, [x61], [x01]); (0, sx_addr, [x61], [x02])].
Proof. exact C42_example_pf. Qed.

(** C43: in every history, the messages the application got from connection [cid] are, one by one and in order, images of frames received on this connection (each used at
    most once): the source is the address of the connection, the topic the frame's topic (the same one if it is valid UTF-8), the payload
    the frame's payload, decompressed as its compression type says. *)
Theorem C43_in_order_unmodified :
  forall token ingress initial D evs s log cid,
  sb_run token ingress initial D sb_init evs = (s, log) ->
  exists ms, subseq ms (received_on cid log) /\
  Forall2 (fun m q => match q with (a, t, p) =>
      In (UOpen cid a) log /\ t = from_utf8_lossy (ps_topic m) /\ (utf8 (ps_topic m) -> t = ps_topic m) /\ try_decompress D (ps_ctype m) (ps_payload m) = Some p end)
    ms (yielded cid log).
Proof. exact C43_in_order_unmodified_pf. Qed.
Print Assumptions C43_in_order_unmodified.

(** C43: in every history, what becomes of the frames received on a connection: a session refuses a frame only when 1024 messages wait for the driver or when the driver has dropped the connection; the messages it passes on are taken by the
    driver in order, except those still waiting or those lost when the driver dropped the connection, which happens only on a disconnect command for its address or when the session has crashed; the driver
    refuses a message it took only if it cannot be decompressed, or when [ingress] messages wait for the application, or the socket is gone; and the messages passed to the
    socket are given to the application in order, except those still waiting (or lost with the socket). *)
Theorem C43_drop_reasons :
  forall token ingress initial D evs s log,
  sb_run token ingress initial D sb_init evs = (s, log) ->
  (forall before cid m now after, log = before ++ URecv cid m now TFull :: after -> blen (accepted cid before) = blen (taken cid before) + 1024) /\
  (forall before cid m now after, log = before ++ URecv cid m now TClosed :: after -> driver_closed cid before) /\
  (forall cid, exists rest, map tmsg_of (accepted cid log) = taken cid log ++ rest /\ (driver_closed cid log -> In (UClosed cid rest) log)) /\
  (forall before cid a after lost, log = before ++ UOpen cid a :: after -> In (UClosed cid lost) after -> In (CDisconnect a) (commands after) \/ In (UCrash cid) after) /\
  (forall cid m, In (UUndecodable cid m) log -> try_decompress D (tm_ctype m) (tm_payload m) = None) /\
  (forall before cid m a p after, log = before ++ UDeliver cid m a p TFull :: after -> blen (queued before) = blen (yields before) + ingress) /\
  (forall before cid m a p after, log = before ++ UDeliver cid m a p TClosed :: after -> In UDropped before) /\
  (exists rest, queued log = yields log ++ rest /\ (~ In UDropped log -> rest = sb_out s /\ blen rest <= ingress)).
Proof. exact C43_drop_reasons_pf. Qed.
Print Assumptions C43_drop_reasons.

Example C43_example :
  let r := sx_run (sx_open ++ flat_map (fun n => [YSess 0 (sx_env (sx_msg (if Nat.eqb n 3 then x05 else x00) (repeat x07 n)))]) (seq 1 7) ++ repeat (YEntry sx_addr 10) 7 ++ repeat YTake 7) in
  map (fun q => length (snd q)) (yielded 0 (snd r)) = [1; 2; 4; 5]%nat /\ map (fun m => length (ps_payload m)) (received_on 0 (snd r)) = seq 1 7.
Proof. exact C43_example_pf. Qed.

(** C44: every call of subscribe, try_subscribe, unsubscribe or try_unsubscribe returns ReservedTopic, and changes nothing, iff the topic starts with "MSG". *)
Theorem C44_reserved_topics_refused :
  forall f t s s' o,
  (exists try, f = ApSub try t \/ f = ApUnsub try t) -> sb_dropped s = false -> sb_call f s = (s', o) ->
  ((exists rest, t = [x4d; x53; x47] ++ rest) -> s' = s /\ o = [UApi f AReserved]) /\
  ((forall rest, t <> [x4d; x53; x47] ++ rest) -> o <> [UApi f AReserved] /\ (o = [UApi f AOk] -> sb_cmdq s' = sb_cmdq s ++ meaning f)).
Proof. exact C44_reserved_topics_refused_pf. Qed.
Print Assumptions C44_reserved_topics_refused.

Example C44_example :
  calls (snd (sx_run (map YApi [ApSub true [x4d; x53; x47; x21]; ApSub false [x4d; x53]; ApUnsub true [x4d; x53; x47]; ApUnsub true [x20; x4d; x53; x47]]))) = [ApSub false [x4d; x53]; ApUnsub true [x20; x4d; x53; x47]] /\
  sb_call (ApSub true [x4d; x53; x47; x21]) sb_init = (sb_init, [UApi (ApSub true [x4d; x53; x47; x21]) AReserved]).
Proof. exact C44_example_pf. Qed.

(** C45 (subscriber) is violated: subscribe() accepts a topic of 65528 bytes; the session panics when it makes the frame for it: the connection is lost. *)
Theorem C45_subscribe_oversized_topic_refuted :
  exists topic, blen topic = 65528 /\
  let r := sx_run (sx_open ++ [YApi (ApSub true topic); YCommand] ++ repeat (YSess 0 (sx_env PnPending)) 3) in
  blen (calls (snd r)) = 3 /\ flat_map (fun x => match x with UCrash c => [c] | _ => [] end) (snd r) = [0].
Proof. exact C45_subscribe_oversized_topic_refuted_pf. Qed.
Print Assumptions C45_subscribe_oversized_topic_refuted.

(** C45 (subscriber; what holds): in every history a session crashes only if the application successfully called subscribe or unsubscribe with a topic so long that the control frame's topic ("MSG.SUB." or "MSG.UNSUB." and the topic) has at least 65536 bytes. *)
Theorem C45_subscribe_crash_only_oversized_partial :
  forall token ingress initial D evs s log cid,
  sb_run token ingress initial D sb_init evs = (s, log) -> In (UCrash cid) log ->
  exists try t, (In (ApSub try t) (calls log) /\ 2 ^ 16 <= blen (sub_prefix ++ t)) \/ (In (ApUnsub try t) (calls log) /\ 2 ^ 16 <= blen (unsub_prefix ++ t)).
Proof. exact C45_subscribe_crash_only_oversized_partial_pf. Qed.
Print Assumptions C45_subscribe_crash_only_oversized_partial.

Example C45_subscribe_example :
  let r := sx_run (sx_open ++ [YApi (ApSub true (repeat x61 (N.to_nat 65527))); YCommand] ++ repeat (YSess 0 (sx_env PnPending)) 4) in
  map (fun m => blen (ps_topic m)) (wired 0 (snd r)) = [9; 65535] /\ flat_map (fun x => match x with UCrash c => [c] | _ => [] end) (snd r) = [].
Proof. exact C45_subscribe_example_pf. Qed.

(** C46 (what holds): in every history of spawning and joining, there is at most one task per key; and if no task panicked, spawn starts a task iff none with this key is running. *)
Theorem C46_one_task_per_key_partial :
  forall (K : Type) (E : EqDec K) (l : list jm_op) (k : K),
  let m := jm_run jm_new l in
  NoDup (jm_tasks m) /\ ((forall i, ~ In (JFinish i true) l) -> (snd (jm_spawn k m) = true <-> ~ In k (jm_tasks m))).
Proof. exact C46_one_task_per_key_partial_pf. Qed.
Print Assumptions C46_one_task_per_key_partial.

(** C46 is violated: after a task has panicked, no task with its key can ever be started again, although none is running. *)
Theorem C46_panicked_task_blocks_its_key_refuted :
  forall (K : Type) (E : EqDec K) (k : K) (later : list jm_op),
  let m := jm_run jm_new ([JSpawn k; JFinish 0 true] ++ later) in
  ~ In k (jm_tasks m) /\ snd (jm_spawn k m) = false.
Proof. exact C46_panicked_task_blocks_its_key_refuted_pf. Qed.
Print Assumptions C46_panicked_task_blocks_its_key_refuted.

(** C46 (in the subscriber): in every history at most one connection attempt per address is in progress. *)
Theorem C46_one_attempt_at_a_time_partial :
  forall token ingress initial D evs s log a,
  sb_run token ingress initial D sb_init evs = (s, log) ->
  (attempts_ended a log <= attempts a log <= attempts_ended a log + 1)%nat.
Proof. exact C46_one_attempt_at_a_time_partial_pf. Qed.
Print Assumptions C46_one_attempt_at_a_time_partial.

(** C46 is violated in the subscriber: a connection task panics (say, in the transport's connect); the driver retries with back-off, but no attempt is ever made again. *)
Theorem C46_no_reconnect_after_panic_refuted :
  let r := sx_run ([YApi (ApConnect true (Some sx_addr)); YCommand; YJoin 0 JPanic []; YEntry sx_addr 0] ++ map (fun n => YEntry sx_addr (N.of_nat n * 100000000)) (seq 1 40)) in
  attempts sx_addr (snd r) = 1%nat /\ attempts_ended sx_addr (snd r) = 1%nat /\ In (UGaveUp sx_addr) (snd r).
Proof. exact C46_no_reconnect_after_panic_refuted_pf. Qed.
Print Assumptions C46_no_reconnect_after_panic_refuted.

Example C46_example :
  let r := sx_run ([YApi (ApConnect true (Some sx_addr)); YCommand; YJoin 0 JFail []; YEntry sx_addr 0] ++ map (fun n => YEntry sx_addr (N.of_nat n * 100000000)) (seq 1 3)) in
  attempts sx_addr (snd r) = 2%nat /\ attempts_ended sx_addr (snd r) = 1%nat /\ jm_tasks (jm_run jm_new [JSpawn 1; JSpawn 2; JSpawn 1; JFinish 0 false; JSpawn 1]) = [2; 1].
Proof. exact C46_example_pf. Qed.

(** C47 (what holds): for an endpoint whose IP address is not the unspecified one, disconnect() asks for the removal of exactly the publisher connect() asks for; and in every history, when the driver
    processes this command, it removes the publisher and drops every connection to it that had been opened before. *)
Theorem C47_disconnect_undoes_connect_partial :
  forall a, unspecified a = false ->
  (forall t1 t2, meaning (ApConnect t1 (Some a)) = [CConnect a] /\ meaning (ApDisconnect t2 (Some a)) = [CDisconnect a]) /\
  (forall token ingress initial D evs s q, fst (sb_run token ingress initial D sb_init evs) = s -> sb_cmdq s = CDisconnect a :: q ->
     mem a (sb_pubs (fst (sb_act token ingress initial D s YCommand))) = false) /\
  (forall token ingress initial D evs s before after cid, sb_run token ingress initial D sb_init evs = (s, before ++ UCmd (CDisconnect a) :: after) ->
     In (UOpen cid a) before -> driver_closed cid (before ++ UCmd (CDisconnect a) :: after)).
Proof. exact C47_disconnect_undoes_connect_partial_pf. Qed.
Print Assumptions C47_disconnect_undoes_connect_partial.

(** C47 is violated for the unspecified address: connect() dials the loopback address instead, while disconnect() looks for the unspecified one; so the publisher stays connected. *)
Theorem C47_unspecified_address_refuted :
  (forall a t1 t2, unspecified a = true -> exists b, b <> a /\ meaning (ApConnect t1 (Some a)) = [CConnect b] /\ meaning (ApDisconnect t2 (Some a)) = [CDisconnect a]) /\
  let any := AV4 0 80 in
  let r := sx_run [YApi (ApConnect true (Some any)); YCommand; YJoin 0 (JConn true []) []; YApi (ApDisconnect true (Some any)); YCommand; YSess 0 (sx_env (sx_msg x00 [x07])); YEntry (AV4 2130706433 80) 10; YTake] in
  calls (snd r) = [ApConnect true (Some any); ApDisconnect true (Some any)] /\ blen (commands (snd r)) = 2 /\ yielded 0 (snd r) = [(AV4 2130706433 80, [x61], [x07])].
Proof. exact C47_unspecified_address_refuted_pf. Qed.
Print Assumptions C47_unspecified_address_refuted.

Example C47_example :
  let r := sx_run (sx_open ++ [YApi (ApDisconnect true (Some sx_addr)); YCommand]) in
  unspecified sx_addr = false /\ In (UOpen 0 sx_addr) (snd r) /\ In (UClosed 0 []) (snd r) /\ sb_pubs (fst r) = [].
Proof. exact C47_example_pf. Qed.

(** C48 is violated: after the SubSocket has been dropped, an established connection is never closed: whatever happens, unless a disconnect for it was already waiting (or the session crashes), its session does not end and the
    driver does not drop it.  (The driver itself never ends: [sb_poll] has no such result.) *)
Theorem C48_connections_outlive_the_socket_refuted :
  forall token ingress initial D evs1 s1 log1 cid a evs2 s2 log2,
  sb_run token ingress initial D sb_init evs1 = (s1, log1) -> In UDropped log1 -> ~ In (CDisconnect a) (sb_cmdq s1) ->
  In (UOpen cid a) log1 -> ~ session_ended cid log1 -> ~ driver_closed cid log1 ->
  sb_run token ingress initial D s1 evs2 = (s2, log2) -> ~ In (UCrash cid) log2 ->
  ~ session_ended cid log2 /\ ~ driver_closed cid log2.
Proof. exact C48_connections_outlive_the_socket_refuted_pf. Qed.
Print Assumptions C48_connections_outlive_the_socket_refuted.

(** C48 is violated, concretely: connected, the socket dropped, the driver processes the shutdown command, time passes: the connection is still there, and receives. *)
Theorem C48_drop_example_refuted :
  let r := sx_run (sx_open ++ [YDrop; YCommand; YCommand; YEntry sx_addr 1000000000000; YSess 0 (sx_env PnPending); YSess 0 (sx_env (sx_msg x00 [x01])); YEntry sx_addr 2000000000000]) in
  In (UCmd CShutdown) (snd r) /\ map ps_payload (received_on 0 (snd r)) = [[x01]] /\ mget sx_addr (sb_pubs (fst r)) = Some (PActive 0) /\ sb_cmdq (fst r) = [].
Proof. exact C48_drop_example_refuted_pf. Qed.
Print Assumptions C48_drop_example_refuted.

(** C48 (what holds): once the driver has dropped a connection (on disconnect), its session ends in its next poll, and with it the connection - unless the publisher keeps it busy with more and more frames: a poll
    never goes to sleep, and with [k] incoming frames it ends after at most [session_work + k] further turns. *)
Theorem C48_disconnected_session_ends_partial :
  forall token ingress initial D evs s log cid a es s' o r,
  sb_run token ingress initial D sb_init evs = (s, log) -> In (UOpen cid a) log -> driver_closed cid log -> ~ session_ended cid log ->
  ss_poll cid es s = (s', o, r) -> (session_work cid s + length (filter (fun e => incoming (y_next e)) es) < length es)%nat ->
  session_ended cid (log ++ o).
Proof. exact C48_disconnected_session_ends_partial_pf. Qed.
Print Assumptions C48_disconnected_session_ends_partial.

Example C48_example :
  let r := sx_run (sx_open ++ [YApi (ApDisconnect true (Some sx_addr)); YCommand; YSess 0 (sx_env (sx_msg x00 [x01]))] ++ repeat (YSess 0 (sx_env PnPending)) 3) in
  In (UEnd 0) (snd r).
Proof. exact C48_example_pf. Qed.

(** C57 (subscriber session): one poll of a running session returns: a poll that is still looping has used at most one turn per frame received and a bounded number of further ones. *)
Theorem C57_subscriber_session_poll_terminates :
  forall token ingress initial D evs s log cid a es s' o,
  sb_run token ingress initial D sb_init evs = (s, log) -> In (UOpen cid a) log -> ~ session_ended cid log -> ss_poll cid es s = (s', o, None) ->
  (length es <= session_work cid s + length (filter (fun e => incoming (y_next e)) es))%nat.
Proof. exact C57_subscriber_session_poll_terminates_pf. Qed.
Print Assumptions C57_subscriber_session_poll_terminates.

(** C57 (subscriber driver): one poll of the driver returns after at most [driver_work] turns, which depends only on the state it starts in, whatever the environment answers. *)
Theorem C57_subscriber_driver_poll_terminates :
  forall token ingress initial D evs s log ds s' o,
  sb_run token ingress initial D sb_init evs = (s, log) -> sb_poll token ingress initial D ds s = (s', o, false) -> (length ds <= driver_work s)%nat.
Proof. exact C57_subscriber_driver_poll_terminates_pf. Qed.
Print Assumptions C57_subscriber_driver_poll_terminates.

Example C57_subscriber_example :
  let s := fst (sx_run (sx_open ++ [YSess 0 (sx_env (sx_msg x00 [x01])); YApi (ApSub true [x62])])) in
  driver_work s = 35%nat /\ session_work 0 s = 2%nat /\
  snd (sb_poll None 4 1000 sx_D (repeat (mkYd 10 [] None) 2) s) = false /\ snd (sb_poll None 4 1000 sx_D (repeat (mkYd 10 [] None) 3) s) = true /\
  snd (ss_poll 0 (repeat (sx_env PnPending) 2) s) = None /\ snd (ss_poll 0 (repeat (sx_env PnPending) 3) s) = Some SPend.
Proof. exact C57_subscriber_example_pf. Qed.

(** C64 (subscriber session): a session goes to sleep only after a turn in which its connection had no frame (or was at its end), no command was waiting, and there was nothing to write or the connection
    was not ready for it. *)
Theorem C64_subscriber_session_sleeps_only_when_idle_partial :
  forall cid es s s' o, ss_poll cid es s = (s', o, Some SPend) ->
  exists before e rest x, es = before ++ e :: rest /\ mget cid (sb_conns s') = Some x /\
    (y_next e = PnPending \/ y_next e = PnEof) /\ sc_cmds x = [] /\ (sc_egress x = [] \/ y_sends e = [] \/ hd_error (y_sends e) = Some SaBusy).
Proof. exact C64_subscriber_session_sleeps_only_when_idle_partial_pf. Qed.
Print Assumptions C64_subscriber_session_sleeps_only_when_idle_partial.

(** C64 (subscriber driver, what holds): the driver goes to sleep only after a pass in which no command was waiting, every message was taken from every connection on which it found no undecodable one, and the connection
    task it looked at, if any, had not finished - or had panicked. *)
Theorem C64_subscriber_driver_sleeps_only_when_idle_partial :
  forall token ingress initial D evs s log ds s' o,
  sb_run token ingress initial D sb_init evs = (s, log) -> sb_poll token ingress initial D ds s = (s', o, true) ->
  sb_cmdq s' = [] /\
  (forall cid x, mget cid (sb_conns s') = Some x -> sc_held x = true -> (forall m, ~ In (UUndecodable cid m) o) -> sc_in x = []) /\
  exists before d rest, ds = before ++ d :: rest /\
    forall k r order, yd_join d = Some (k, r, order) -> nth_error (jm_tasks (sb_tasks s')) k = None \/ (exists a, In (UTaskPanic a) o) \/
      (exists ok i, r = JConn ok i /\ fst (fst (auth_client token ok i)) = ClRunning).
Proof. exact C64_subscriber_driver_sleeps_only_when_idle_partial_pf. Qed.
Print Assumptions C64_subscriber_driver_sleeps_only_when_idle_partial.

(** C64 is violated by the subscriber's driver: when a connection task has panicked, it goes to sleep although another one has finished and is ready to be taken (here connection 1 of 2). *)
Theorem C64_subscriber_driver_sleeps_on_panic_refuted :
  let a1 := AV4 2130706433 81 in let a2 := AV4 2130706433 82 in
  let s := fst (sx_run [YApi (ApConnect true (Some a1)); YApi (ApConnect true (Some a2)); YCommand; YCommand]) in
  exists s' o, sb_poll None 4 1000 sx_D [mkYd 0 [] (Some (0%nat, JPanic, [])); mkYd 0 [] (Some (0%nat, JConn true [], []))] s = (s', o, true) /\
  o = [UTaskPanic a1] /\ jm_tasks (sb_tasks s') = [a2].
Proof. exact C64_subscriber_driver_sleeps_on_panic_refuted_pf. Qed.
Print Assumptions C64_subscriber_driver_sleeps_on_panic_refuted.

Example C64_subscriber_example :
  let s := fst (sx_run sx_open) in
  snd (sb_poll None 4 1000 sx_D [mkYd 10 [] None] s) = true /\ snd (ss_poll 0 (repeat (sx_env PnPending) 3) s) = Some SPend.
Proof. exact C64_subscriber_example_pf. Qed.

(** C65 (what holds): in every history, for an address with an established connection that was not disconnected since, the statistics are those of the last connection to it: bytes_rx is the number of payload bytes of the frames received on it, and the latency the
    moving average of the measured latencies; and an address that never had a connection has no entry. *)
Theorem C65_statistics_of_the_connection_partial :
  forall token ingress initial D evs s log a,
  sb_run token ingress initial D sb_init evs = (s, log) ->
  (forall before cid after, log = before ++ UOpen cid a :: after -> (forall c, ~ In (UOpen c a) after) -> ~ In (CDisconnect a) (commands after) ->
     sb_bytes_rx a s = Some (sum_len (map ps_payload (received_on cid log))) /\
     sb_latency a s = Some (av_value (latency_after (latencies cid log)))) /\
  ((forall c, ~ In (UOpen c a) log) -> sb_bytes_rx a s = None /\ sb_latency a s = None).
Proof. exact C65_statistics_of_the_connection_partial_pf. Qed.
Print Assumptions C65_statistics_of_the_connection_partial.

(** C65 is violated: when the driver gives up reconnecting to a publisher, its statistics stay; disconnect() does not remove them either. *)
Theorem C65_stale_statistics_refuted :
  let r := sx_run (sx_open ++ [YSess 0 (sx_env (sx_msg x00 [x01; x02])); YEntry sx_addr 5; YApi (ApSub true (repeat x61 (N.to_nat (2 ^ 16)))); YCommand] ++ repeat (YSess 0 (sx_env PnPending)) 3 ++
                   [YEntry sx_addr 10; YEntry sx_addr 10] ++ flat_map (fun n => [YEntry sx_addr (10000 * 2 ^ N.of_nat n); YJoin 0 JFail []]) (seq 1 17) ++ [YApi (ApDisconnect true (Some sx_addr)); YCommand]) in
  flat_map (fun x => match x with UGaveUp a => [a] | _ => [] end) (snd r) = [sx_addr] /\ sb_pubs (fst r) = [] /\ sb_cmdq (fst r) = [] /\ sb_bytes_rx sx_addr (fst r) = Some 2.
Proof. exact C65_stale_statistics_refuted_pf. Qed.
Print Assumptions C65_stale_statistics_refuted.

Example C65_example :
  let r := sx_run (sx_open ++ [YSess 0 (sx_env (sx_msg x00 [x01; x02])); YSess 0 (mkYenv true (sx_msg x00 [x03]) [] 9)]) in
  sb_bytes_rx sx_addr (fst r) = Some 3 /\ latencies 0 (snd r) = [2; 6] /\ sb_latency sx_addr (fst r) = Some 4 /\ sb_bytes_rx (AV4 0 80) (fst r) = None.
Proof. exact C65_example_pf. Qed.

