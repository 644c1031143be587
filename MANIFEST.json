{
 "claims": [
  {
   "property": "C01",
   "status": "proved",
   "theorems": [
    "C01_reqrep_fragmentation",
    "C01_encoder_conforms"
   ],
   "note": ""
  },
  {
   "property": "C02",
   "status": "proved",
   "theorems": [
    "C02_pubsub_fragmentation",
    "C02_encoder_conforms"
   ],
   "note": ""
  },
  {
   "property": "C03",
   "status": "partial",
   "theorems": [
    "C03_auth_fragmentation_refuted",
    "C03_auth_fragmentation_partial",
    "C03_encoder_conforms",
    "C03_ack_fragmentation"
   ],
   "note": "Violated by the code: the server-side decoder panics on some splits (auth.rs 75-87). The partial theorem is an exact characterisation (token obtained iff no read ends at a fatal position)."
  },
  {
   "property": "C04",
   "status": "partial",
   "theorems": [
    "C04_reqrep_no_panic_no_loss",
    "C04_pubsub_no_panic_no_loss",
    "C04_auth_panics_partial",
    "C04_auth_no_panic_refuted",
    "C04_auth_client_no_panic"
   ],
   "note": "Proved for the request/reply and pub/sub decoders and the client side of auth; the server side of auth panics (refuted, exact characterisation given)."
  },
  {
   "property": "C05",
   "status": "proved",
   "theorems": [
    "C05_reqrep_foreign_rejected",
    "C05_decoders_consume_nothing",
    "C05_pubsub_foreign_rejected"
   ],
   "note": ""
  },
  {
   "property": "C06",
   "status": "proved",
   "theorems": [
    "C06_reqrep_chunking_independent",
    "C06_pubsub_chunking_independent"
   ],
   "note": ""
  },
  {
   "property": "C07",
   "status": "partial",
   "theorems": [
    "C07_every_size_framed_refuted",
    "C07_every_size_framed_partial",
    "C07_pubsub_sizes_partial"
   ],
   "note": "Violated for payloads of 2^32 bytes or more (`as u32` truncation); exact law proved, correct below 2^32."
  },
  {
   "property": "C08",
   "status": "proved",
   "theorems": [
    "C08_decompressor_selected_by_header",
    "C08_request_transparent",
    "C08_response_transparent",
    "C08_publish_transparent"
   ],
   "note": ""
  },
  {
   "property": "C09",
   "status": "partial",
   "theorems": [
    "C09_threshold_refuted",
    "C09_threshold_partial",
    "C09_threshold_ignored_partial"
   ],
   "note": "Violated on some paths (respond() ignores the threshold, try_publish(), len = threshold); exact laws proved for every path."
  },
  {
   "property": "C10",
   "status": "proved",
   "theorems": [
    "C10_response_matches_request"
   ],
   "note": ""
  },
  {
   "property": "C11",
   "status": "proved",
   "theorems": [
    "C11_at_most_one_result",
    "C11_stray_response_ignored"
   ],
   "note": ""
  },
  {
   "property": "C12",
   "status": "proved",
   "theorems": [
    "C12_timeout_check_exact"
   ],
   "note": ""
  },
  {
   "property": "C13",
   "status": "partial",
   "theorems": [
    "C13_timeout_while_connected_partial",
    "C13_no_timeout_while_reconnecting_refuted",
    "C13_timeouts_starved_by_traffic_refuted"
   ],
   "note": "Violated while disconnected and under continuous inbound traffic (refuted); proved for an idle active connection."
  },
  {
   "property": "C14",
   "status": "proved",
   "theorems": [
    "C14_requests_sent_in_order",
    "C14_reset_keeps_queues"
   ],
   "note": ""
  },
  {
   "property": "C15",
   "status": "partial",
   "theorems": [
    "C15_reconnects_after_error_partial",
    "C15_eof_is_final_refuted"
   ],
   "note": "Violated: a clean close by the server ends the driver for good. Proved for wire/transport errors."
  },
  {
   "property": "C16",
   "status": "proved",
   "theorems": [
    "C16_all_resolved_when_stopped",
    "C16_no_call_lost",
    "C16_stop_closes_outstanding"
   ],
   "note": ""
  },
  {
   "property": "C17",
   "status": "proved",
   "theorems": [
    "C17_each_poll",
    "C17_each_poll_any_length",
    "C17_prompt_schedule"
   ],
   "note": ""
  },
  {
   "property": "C18",
   "status": "partial",
   "theorems": [
    "C18_at_most_15_attempts_partial",
    "C18_retry_options_ignored_refuted",
    "C18_options_without_effect_refuted"
   ],
   "note": "Violated: retry_attempts, backoff_duration and blocking_connect have no effect; at most 15 attempts are ever made."
  },
  {
   "property": "C19",
   "status": "proved",
   "theorems": [
    "C19_average_bounds"
   ],
   "note": ""
  },
  {
   "property": "C20",
   "status": "partial",
   "theorems": [
    "C20_average_follows_mean_refuted",
    "C20_one_step_formula_partial"
   ],
   "note": "Violated: repeated rounding drifts arbitrarily far from the mean."
  },
  {
   "property": "C21",
   "status": "partial",
   "theorems": [
    "C21_publisher_bytes_tx_refuted",
    "C21_publisher_bytes_partial",
    "C21_reply_bytes_partial",
    "C21_reply_bytes_tx_refuted",
    "C21_request_bytes_tx_partial",
    "C21_request_bytes_tx_refuted"
   ],
   "note": "Violated: the wire-id byte is not counted (exact law proved per socket kind)."
  },
  {
   "property": "C22",
   "status": "proved",
   "theorems": [
    "C22_frames_answer_requests",
    "C22_every_response_accounted_for"
   ],
   "note": ""
  },
  {
   "property": "C23",
   "status": "partial",
   "theorems": [
    "C23_response_stranded_refuted",
    "C23_response_not_stranded_partial"
   ],
   "note": "Violated: taking a dropped request off the pending set lets the driver go idle with an answer unsent (refuted). Proved for clients none of whose requests were dropped."
  },
  {
   "property": "C24",
   "status": "proved",
   "theorems": [
    "C24_publisher_max_clients",
    "C24_reply_max_clients"
   ],
   "note": "Proved for the reply and the publisher socket."
  },
  {
   "property": "C25",
   "status": "partial",
   "theorems": [
    "C25_publisher_active_clients_refuted",
    "C25_publisher_active_clients_partial",
    "C25_reply_active_clients_refuted",
    "C25_reply_active_clients_partial"
   ],
   "note": "Violated (auth task panic; reply socket: client evicted by one with the same address); exact law proved for both sockets."
  },
  {
   "property": "C26",
   "status": "proved",
   "theorems": [
    "C26_publisher_only_authenticated",
    "C26_publisher_rejected_dropped",
    "C26_publisher_verdict",
    "C26_reply_only_authenticated",
    "C26_reply_rejected_dropped",
    "C26_reply_verdict"
   ],
   "note": "Proved for the reply and the publisher socket."
  },
  {
   "property": "C27",
   "status": "partial",
   "theorems": [
    "C27_same_address_evicts_refuted",
    "C27_clients_isolated_partial"
   ],
   "note": "Violated: a new connection with the address of a connected client evicts it; on IPC all clients share one address. Isolation proved for different addresses."
  },
  {
   "property": "C28",
   "status": "proved",
   "theorems": [
    "C28_literal_subscriptions_are_a_set"
   ],
   "note": ""
  },
  {
   "property": "C29",
   "status": "partial",
   "theorems": [
    "C29_no_forward_without_match",
    "C29_gt_inside_refuted"
   ],
   "note": "Proved for subscriptions whose > is in final position; with > inside, unsubscribe leaves a ghost subscription (refuted)."
  },
  {
   "property": "C30",
   "status": "partial",
   "theorems": [
    "C30_star_complete_refuted",
    "C30_star_complete_unless_shadowed_partial",
    "C30_exact_topic_always_forwarded"
   ],
   "note": "Violated: an exact sibling token shadows *. Partial theorem: forwarded unless shadowed."
  },
  {
   "property": "C31",
   "status": "partial",
   "theorems": [
    "C31_gt_wildcard_refuted",
    "C31_gt_exact_behaviour_partial"
   ],
   "note": "Violated: > never matches anything but a literal > token. Exact behaviour proved."
  },
  {
   "property": "C32",
   "status": "partial",
   "theorems": [
    "C32_only_held_set_matters",
    "C32_unsubscribe_undoes_subscribe",
    "C32_no_nodes_left",
    "C32_gt_inside_refuted"
   ],
   "note": "Proved for subscriptions whose > is in final position; refuted for > elsewhere."
  },
  {
   "property": "C33",
   "status": "proved",
   "theorems": [
    "C33_in_order_no_duplicates",
    "C33_due_literal"
   ],
   "note": ""
  },
  {
   "property": "C34",
   "status": "proved",
   "theorems": [
    "C34_every_message_accounted_for",
    "C34_only_lag_skips_the_oldest"
   ],
   "note": ""
  },
  {
   "property": "C35",
   "status": "partial",
   "theorems": [
    "C35_malformed_control_refuted",
    "C35_malformed_ignored_partial"
   ],
   "note": "Violated: ControlMsg::Close is only logged, the session goes on. Exact behaviour proved."
  },
  {
   "property": "C36",
   "status": "proved",
   "theorems": [
    "C36_control_messages_mean_the_topic",
    "C36_operations_are_those_received"
   ],
   "note": ""
  },
  {
   "property": "C37",
   "status": "partial",
   "theorems": [
    "C37_order_holds_without_back_pressure_partial",
    "C37_commands_reordered_refuted"
   ],
   "note": "Violated under back-pressure: a control frame the connection does not accept at once is put back at the end of the egress queue (sub/session.rs 129-133), behind later ones. Proved in the absence of back-pressure; always: no command is lost, duplicated or altered."
  },
  {
   "property": "C38",
   "status": "partial",
   "theorems": [
    "C38_first_64_topics_partial",
    "C38_65th_topic_lost_refuted"
   ],
   "note": "Violated: more than the channel capacity of topics on connect are dropped (try_send ignored). Proved below it."
  },
  {
   "property": "C39",
   "status": "proved",
   "theorems": [
    "C39_subscriptions_are_a_set"
   ],
   "note": ""
  },
  {
   "property": "C40",
   "status": "partial",
   "theorems": [
    "C40_disconnect_without_attempt_in_progress_partial",
    "C40_connect_in_progress_refuted",
    "C40_queued_message_refuted"
   ],
   "note": "Violated by in-flight connection attempts and re-use; partial theorem for the established session."
  },
  {
   "property": "C41",
   "status": "partial",
   "theorems": [
    "C41_lost_publisher_not_noticed_refuted",
    "C41_eof_ignored_refuted",
    "C41_ended_session_is_redialled_partial",
    "C41_session_end_reasons_partial"
   ],
   "note": "Violated: EOF/wire error stalls the session without a waker. Partial theorems give what does hold."
  },
  {
   "property": "C42",
   "status": "partial",
   "theorems": [
    "C42_nothing_left_waiting_partial",
    "C42_undecodable_message_stalls_refuted"
   ],
   "note": "Violated: an undecodable message makes no progress and the rest of the queue waits for the next wake-up. Proved otherwise."
  },
  {
   "property": "C43",
   "status": "proved",
   "theorems": [
    "C43_in_order_unmodified",
    "C43_drop_reasons"
   ],
   "note": ""
  },
  {
   "property": "C44",
   "status": "proved",
   "theorems": [
    "C44_reserved_topics_refused"
   ],
   "note": ""
  },
  {
   "property": "C45",
   "status": "partial",
   "theorems": [
    "C45_publish_oversized_topic_refuted",
    "C45_publish_crash_only_oversized_partial",
    "C45_subscribe_oversized_topic_refuted",
    "C45_subscribe_crash_only_oversized_partial"
   ],
   "note": "Violated on both sides: a topic of 65536 bytes or more crashes the session task. Proved: nothing else does."
  },
  {
   "property": "C46",
   "status": "partial",
   "theorems": [
    "C46_one_task_per_key_partial",
    "C46_panicked_task_blocks_its_key_refuted",
    "C46_one_attempt_at_a_time_partial",
    "C46_no_reconnect_after_panic_refuted"
   ],
   "note": "Violated: a panicked connect task never leaves the map (and puts the driver to sleep). Proved: at most one per address always; slot freed after normal completion or cancellation."
  },
  {
   "property": "C47",
   "status": "partial",
   "theorems": [
    "C47_disconnect_undoes_connect_partial",
    "C47_unspecified_address_refuted"
   ],
   "note": "Violated for unspecified addresses (connect rewrites them to localhost, disconnect does not). Proved for all others."
  },
  {
   "property": "C48",
   "status": "partial",
   "theorems": [
    "C48_connections_outlive_the_socket_refuted",
    "C48_drop_example_refuted",
    "C48_disconnected_session_ends_partial"
   ],
   "note": "Violated: sessions and connect tasks survive the socket; partial theorem states what is released."
  },
  {
   "property": "C49",
   "status": "proved",
   "theorems": [
    "C49_client_needs_acknowledgement",
    "C49_subscriber",
    "C49_request_socket"
   ],
   "note": "Proved for the handshake function, the subscriber and the request socket."
  },
  {
   "property": "C50",
   "status": "proved",
   "theorems": [
    "C50_tcp",
    "C50_quic",
    "C50_ipc",
    "C50_transport_already_bound"
   ],
   "note": "Proved for TCP, QUIC and IPC transports. Assumes the operating system can report the address of a listener it has created (TCP, QUIC) and that the list has no path twice (IPC). A transport the program bound itself beforehand keeps its old address when no listed address works (C50_transport_already_bound)."
  },
  {
   "property": "C51",
   "status": "partial",
   "theorems": [
    "C51_pending_handshake_is_lost_refuted",
    "C51_quic_refuted",
    "C51_tcp_partial",
    "C51_ipc_partial"
   ],
   "note": "Refuted: Acceptor::poll drops the accept future when it is not ready at once, so QUIC connections get lost and the task is never woken. Holds for TCP and IPC, whose accept futures are always ready."
  },
  {
   "property": "C52",
   "status": "proved",
   "theorems": [
    "C52_topics_survive_decoding"
   ],
   "note": "Proved for the decoding function used on both sides; the end-to-end statement is C54."
  },
  {
   "property": "C53",
   "status": "proved",
   "theorems": [
    "C53_ok_is_the_servers_answer",
    "C53_ok_is_f_of_the_request",
    "C53_requests_in_order_at_most_once",
    "C53_requests_are_genuine"
   ],
   "note": "Proved for the request driver, the reply driver, both handshakes and the codec joined by reliable ordered byte streams (Model/ReqRepNet.v), for every interleaving, fragmentation, reconnect and other client. Assumes fewer than 2^32 calls (ids wrap), frames and token below 4 GiB, and compressors inverse to their decompressors."
  },
  {
   "property": "C54",
   "status": "proved",
   "theorems": [
    "C54_connections_are_faithful",
    "C54_obtained_were_published",
    "C54_only_subscribed",
    "C54_nothing_missing_at_rest"
   ],
   "note": "Proved over the joint model (Model/PubSubNet.v): both drivers, all sessions, handshake, both codecs and Framed, the byte streams, arbitrary other peers. Hypotheses: payloads < 4 GiB, token < 4 GiB, timestamps u64, topics valid UTF-8 (Rust strings are), decompressor inverse to the compressor; for matching, `>` only at the end of subscriptions (C29)."
  },
  {
   "property": "C55",
   "status": "proved",
   "theorems": [
    "C55_server_handshake_reads_only_the_auth_frame",
    "C55_client_handshake_reads_only_the_ack"
   ],
   "note": "Proved for both handshakes, for peers that wait for the acknowledgement (as both clients do); the end-to-end theorems C53, C54 rest on it."
  },
  {
   "property": "C56",
   "status": "partial",
   "theorems": [
    "C56_ids_distinct_partial",
    "C56_default_id_refuted",
    "C56_first_start_partial",
    "C56_restart_destroys_refuted",
    "C56_others_destroyed_refuted",
    "C56_stop_partial",
    "C56_linux_noop_refuted"
   ],
   "note": "Ids are distinct (proved; 1, 2, 3, ... for Simulator::new(), while Simulator::default() starts with 0, which is no pipe number). Restarting an endpoint leaves nothing active (the old simulation is dropped, i.e. its packet filter destroyed, after the new one was set up); starting or stopping one simulation ends all others; on Linux nothing happens at all. Shell commands are modelled by their documented effect."
  },
  {
   "property": "C57",
   "status": "proved",
   "theorems": [
    "C57_publisher_poll_returns",
    "C57_reply_poll_returns",
    "C57_request_poll_returns",
    "C57_subscriber_session_poll_terminates",
    "C57_subscriber_driver_poll_terminates"
   ],
   "note": "Proved for the request, reply, publisher and subscriber drivers and for publisher and subscriber sessions."
  },
  {
   "property": "C58",
   "status": "proved",
   "theorems": [
    "C58_requests_yielded_faithfully"
   ],
   "note": ""
  },
  {
   "property": "C59",
   "status": "partial",
   "theorems": [
    "C59_truncation_reported_partial",
    "C59_pubsub_truncation_reported_partial",
    "C59_truncation_reported_refuted"
   ],
   "note": "Violated at one cut position: an end of stream right after a header is reported as an orderly close. Proved for all other cut positions."
  },
  {
   "property": "C60",
   "status": "proved",
   "theorems": [
    "C60_no_request_left_behind"
   ],
   "note": ""
  },
  {
   "property": "C61",
   "status": "partial",
   "theorems": [
    "C61_receive_statistics_partial",
    "C61_receive_statistics_refuted"
   ],
   "note": "Violated: bytes_rx does not count the wire-id byte. Exact law proved."
  },
  {
   "property": "C62",
   "status": "proved",
   "theorems": [
    "C62_one_attempt_at_a_time"
   ],
   "note": ""
  },
  {
   "property": "C63",
   "status": "proved",
   "theorems": [
    "C63_idle_session_up_to_date",
    "C63_written_frames_flushed"
   ],
   "note": ""
  },
  {
   "property": "C64",
   "status": "partial",
   "theorems": [
    "C64_publisher_driver_sleeps_only_when_idle",
    "C64_subscriber_session_sleeps_only_when_idle_partial",
    "C64_subscriber_driver_sleeps_only_when_idle_partial",
    "C64_subscriber_driver_sleeps_on_panic_refuted"
   ],
   "note": "Proved for subscriber and publisher tasks up to the listed exceptions, which are refuted by examples."
  },
  {
   "property": "C65",
   "status": "partial",
   "theorems": [
    "C65_statistics_of_the_connection_partial",
    "C65_stale_statistics_refuted"
   ],
   "note": "Violated: stale statistics after giving up on a publisher. Partial theorem for the rest."
  },
  {
   "property": "C66",
   "status": "partial",
   "theorems": [
    "C66_rebind_panics_refuted",
    "C66_server_law_partial",
    "C66_reconnect_panics_refuted",
    "C66_client_law_partial",
    "C66_client_bad_options_partial"
   ],
   "note": "Refuted: the transport is consumed by the first bind/connect even if it fails, the next call panics; an unbound reply socket panics when polled. Exact laws proved for all histories."
  },
  {
   "property": "C67",
   "status": "partial",
   "theorems": [
    "C67_panicking_options_refuted",
    "C67_other_options_work_partial"
   ],
   "note": "Refuted: timeout < 10 ns, flush interval 0, buffer sizes 0 panic. All other values work (capacities up to tokio's limits); not modelled: memory exhaustion, e.g. max_clients close to usize::MAX in StreamMap::with_capacity."
  },
  {
   "property": "C68",
   "status": "partial",
   "theorems": [
    "C68_tcp_ipc_partial",
    "C68_quic_rebind_refuted",
    "C68_quic_partial",
    "C68_quic_connect_partial"
   ],
   "note": "Holds for TCP and IPC; refuted for QUIC (a second bind after the first accept is ignored by accept)."
  },
  {
   "property": "C69",
   "status": "partial",
   "theorems": [
    "C69_path_taken_over_refuted",
    "C69_file_deleted_refuted",
    "C69_other_paths_untouched_partial"
   ],
   "note": "Refuted (IPC bind removes whatever file is there). Other paths and directories are untouched."
  },
  {
   "property": "C70",
   "status": "proved",
   "theorems": [
    "C70_channel"
   ],
   "note": ""
  },
  {
   "property": "C71",
   "status": "proved",
   "theorems": [
    "C71_request_without_accepted_token",
    "C71_request_connects_only_if_accepted",
    "C71_subscriber_without_accepted_token",
    "C71_subscriber_connects_only_if_accepted"
   ],
   "note": "Proved over both joint models (Model/ReqRepNet.v, Model/PubSubNet.v). Hypothesis: tokens below 4 GiB."
  },
  {
   "property": "C72",
   "status": "proved",
   "theorems": [
    "C72_partial_writes_lose_nothing",
    "C72_flush_ok_means_written",
    "C72_reqrep_end_to_end",
    "C72_pubsub_end_to_end",
    "C72_request_socket",
    "C72_other_sockets"
   ],
   "note": "Proved for the write half of Framed (Model/FramedWrite.v) and for the four sockets joined with it (Model/Writers.v). End-to-end statements assume ids and payload lengths in range."
  },
  {
   "property": "C73",
   "status": "partial",
   "theorems": [
    "C73_request_buffer_partial",
    "C73_reply_publisher_buffer_partial",
    "C73_subscriber_buffer",
    "C73_buffers_refuted"
   ],
   "note": "Bound proved without write errors (request, reply, publisher) and unconditionally (subscriber); refuted with write errors: Poll::Ready(Err) of poll_ready is taken as ready."
  },
  {
   "property": "C74",
   "status": "partial",
   "theorems": [
    "C74_given_up_refuted",
    "C74_subscriber_refuted"
   ],
   "note": "Refuted for all four sockets: write errors are ignored; the connection is kept until reading reports an end."
  },
  {
   "property": "C75",
   "status": "partial",
   "theorems": [
    "C75_request_flushed_before_sleep",
    "C75_reply_publisher_flushed_before_sleep",
    "C75_subscriber_flushed_before_sleep_partial"
   ],
   "note": "Proved for request, reply and publisher sockets; for the subscriber only if no flush failed before (stream.rs takes an error for success, see C74)."
  },
  {
   "property": "C76",
   "status": "proved",
   "theorems": [
    "C76_nothing_stuck_on_a_connection",
    "C76_every_call_accounted_for",
    "C76_every_call_has_a_result"
   ],
   "note": "Quiescent form: states what must hold when there is nothing left to read or write; that such a state can always be reached is C77."
  },
  {
   "property": "C77",
   "status": "proved",
   "theorems": [
    "C77_way_to_rest",
    "C77_every_call_gets_its_answer"
   ],
   "note": "Existence of a bounded way to rest from every reachable connected state; that every fair schedule gets there is C81. Frames lost before (refused by the connection, written on an earlier connection, discarded by the application, channel of 1024 full) are excluded explicitly."
  },
  {
   "property": "C78",
   "status": "proved",
   "theorems": [
    "C78_way_back",
    "C78_unwritten_requests_survive"
   ],
   "note": "Existence of a bounded way back, as in C77. Not covered because false: a driver that has used up its retries, or whose connection reported end-of-file, stops for good (C15, C18)."
  },
  {
   "property": "C79",
   "status": "proved",
   "theorems": [
    "C79_way_to_rest",
    "C79_all_obtained"
   ],
   "note": "Existence of a bounded way to finish from every reachable state with a working connection, as in C77; that every fair scheduler finishes is C82. The exact account of what is obtained excludes nothing but messages pushed out of the session buffer and (as hypotheses) messages refused earlier by a full ingress queue."
  },
  {
   "property": "C80",
   "status": "proved",
   "theorems": [
    "C80_published_at_rest_arrives",
    "C80_subscription_takes_effect",
    "C80_unsubscribe_takes_effect"
   ],
   "note": "From a state at rest. Topics must fit the wire format (longer ones panic, C45) and must not be reserved (C44). The filter's deviations from the documented wildcards are C29-C31."
  },
  {
   "property": "C81",
   "status": "proved",
   "theorems": [
    "C81_every_fair_schedule_comes_to_rest",
    "C81_every_call_is_answered",
    "C81_there_are_fair_schedules"
   ],
   "note": "No new calls and no timeout checks from the moment considered on (the load is what is under way then); the events are those of this connection and the application. The bound of 1024 is the capacity of the reply socket's queue: a request that finds it full is lost in the code."
  },
  {
   "property": "C82",
   "status": "proved",
   "theorems": [
    "C82_every_fair_schedule_comes_to_rest",
    "C82_every_fair_schedule_delivers",
    "C82_there_are_fair_schedules",
    "C82_published_at_rest_arrives",
    "C82_subscription_takes_effect"
   ],
   "note": ""
  },
  {
   "property": "C83",
   "status": "partial",
   "theorems": [
    "C83_publisher_sessions_end",
    "C83_publisher_last_messages_delivered",
    "C83_publisher_drop_refuted",
    "C83_reply_after_drop",
    "C83_reply_serves_on_refuted",
    "C83_request_ends",
    "C83_request_disconnected_refuted"
   ],
   "note": "Proved for connected sockets whose peers read; refuted for the rest (see the _refuted theorems): drivers that never notice the drop, a session whose subscriber does not read, a request task without connection."
  },
  {
   "property": "C84",
   "status": "partial",
   "theorems": [
    "C84_publisher_sessions_independent",
    "C84_reply_flood_refuted",
    "C84_subscriber_turns_partial",
    "C84_subscriber_flood_refuted",
    "C84_subscriber_sessions_independent_partial",
    "C84_reply_clients_independent_partial"
   ],
   "note": "Non-interference over whole pairs of histories proved for the publisher; for the subscriber as long as the queue to the application does not overflow and the session does not crash on an oversized topic; for the reply socket as long as nobody takes over the client's address and the queue to the application is not full when a request of the client comes. Refuted for those exceptions (shared queues)."
  },
  {
   "property": "C85",
   "status": "partial",
   "theorems": [
    "C85_publisher_backlog",
    "C85_subscriber_queues_partial",
    "C85_subscriber_egress_refuted",
    "C85_request_queue_refuted",
    "C85_reply_queue_partial",
    "C85_reply_egress_refuted"
   ],
   "note": "Bounds proved for the publisher's backlog, the subscriber's inbound and command queues, and the reply socket's request queue; unbounded growth of the outgoing queues proved for every size. Write buffers are C73."
  },
  {
   "property": "C86",
   "status": "proved",
   "theorems": [
    "C86_way_back",
    "C86_subscriptions_restored"
   ],
   "note": "Existence of a bounded way back, as in C78. Not covered because false: a connection whose end the session does not notice (C41), a publisher given up after the last retry, a key whose task panicked (its entry in the JoinMap stays)."
  },
  {
   "property": "C87",
   "status": "partial",
   "theorems": [
    "C87_request_options",
    "C87_reply_options",
    "C87_publisher_options",
    "C87_subscriber_options",
    "C87_quic_options",
    "C87_unreachable_choices_refuted"
   ],
   "note": "All setters of all four sockets proved; three documented choices cannot be made (refuted)."
  },
  {
   "property": "C88",
   "status": "partial",
   "theorems": [
    "C88_window_covers_partial",
    "C88_bad_settings_refuted",
    "C88_defaults_partial"
   ],
   "note": "Exact law of the windows proved; refuted for small bandwidths, 32-bit overflow and keep-alive beyond the idle timeout. quinn itself is not modelled."
  },
  {
   "property": "C89",
   "status": "partial",
   "theorems": [
    "C89_conditions_partial",
    "C89_loss_rate_refuted",
    "C89_protocols_ignored_refuted"
   ],
   "note": "Commands against a small specification of dnctl(8). Refuted: loss rate (percent handed on as fraction), protocols ignored. Which filter is active after several starts and stops is C56."
  },
  {
   "property": "C90",
   "status": "partial",
   "theorems": [
    "C90_request_turn_partial",
    "C90_response_turn_partial",
    "C90_reading_turn_partial",
    "C90_publication_turn_partial",
    "C90_control_turn_partial",
    "C90_control_starves_refuted",
    "C90_reading_first_refuted",
    "C90_requests_before_connections_refuted",
    "C90_accept_starves_refuted",
    "C90_subscription_turn_partial",
    "C90_messages_first_refuted",
    "C90_commands_starve_refuted"
   ],
   "note": "Explicit bounds for six kinds of work (*_turn_partial); starvation proved for the others (*_refuted): every task's loop restarts at its first source after each success. tokio's cooperative budget only interrupts a poll; the next one starts again with the first source (for the request socket this is part of the theorem)."
  },
  {
   "property": "C91",
   "status": "partial",
   "theorems": [
    "C91_reply_silent_clients_refuted",
    "C91_reply_place_given_back_partial",
    "C91_publisher_silent_subscribers_refuted",
    "C91_publisher_place_given_back_partial",
    "C91_request_silent_server_refuted",
    "C91_subscriber_silent_publisher_refuted"
   ],
   "note": "Refuted for all four sockets (a silent peer holds its place in every continuation); proved that a failed handshake gives its place back at once (*_place_given_back_partial)."
  },
  {
   "property": "C92",
   "status": "partial",
   "theorems": [
    "C92_in_order",
    "C92_nothing_lost",
    "C92_drop_keeps_address_refuted",
    "C92_released_by_next_client_partial",
    "C92_after_failure"
   ],
   "note": "Order, no panic, no loss and the law after a failure are proved for all interleavings. Refuted: a dropped transport does not give up its address until the next client connects; proved that this client's connection frees it (and is lost)."
  },
  {
   "property": "C93",
   "status": "proved",
   "theorems": [
    "C93_reply_failed_accept",
    "C93_publisher_failed_accept"
   ],
   "note": "Comparison of two runs from the initial state that differ in one failing accept, for both listening sockets. Connections are numbered by admission, so later ones have the next number (rep_later, pub_later in Spec/ListenSpec.v)."
  },
  {
   "property": "C94",
   "status": "proved",
   "theorems": [
    "C94_results_of_calls"
   ],
   "note": "The number of waiting commands is computed from the history (commands of successful calls minus commands processed); C37 says that they are processed in order."
  },
  {
   "property": "C95",
   "status": "proved",
   "theorems": [
    "C95_redial_schedule",
    "C95_waits_never_overflow"
   ],
   "note": "Whether and when the driver looks at the publisher is the environment's choice (it is woken by the back-off timer: C64)."
  },
  {
   "property": "C96",
   "status": "proved",
   "theorems": [
    "C96_passes_as_written",
    "C96_histories_as_written"
   ],
   "note": "Justifies modelling each publisher's action at once, and leaving out tokio's cooperative budget, in Model/SubDriver.v. Sessions running on other threads between the looks and the resets of one pass are not interleaved in Model/SubPass.v."
  },
  {
   "property": "C97",
   "status": "partial",
   "theorems": [
    "C97_accepted_after_first_byte",
    "C97_silent_client_unknown_refuted",
    "C97_heard_client_accepted_partial",
    "C97_reply_silent_clients_refuted",
    "C97_publisher_silent_clients_refuted",
    "C97_silent_clients_hold_places_refuted"
   ],
   "note": "What quinn does at open_bi / accept_bi is modelled as its documentation says. C97_silent_clients_hold_places_refuted is about the whole system: driver plus one QUIC connection per accept future (Model/QuicDriver.v)."
  }
 ]
}