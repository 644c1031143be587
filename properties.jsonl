{"id": "C01", "title": "Request/reply frames survive any fragmentation", "statement": "If a peer encodes any sequence of request/reply messages (ids, compression types, payloads below 4 GiB) back to back and the bytes arrive cut into arbitrary chunks, the receiving decoder yields exactly those messages, in order, with identical ids, compression types and payloads, and is then back in its initial state with an empty buffer.", "quantifier": "all message sequences and all ways to cut the encoded byte stream into reads (including one byte at a time and empty reads)", "why_tests_cant": "The space of payloads times cut points is infinite; a unit test tries a few cuts.", "anchors": ["msg-wire/src/reqrep.rs: Codec::decode, Codec::encode, Message::new"]}
{"id": "C02", "title": "Publish/subscribe frames survive any fragmentation", "statement": "If a publisher encodes any sequence of pub/sub messages (topics up to 65535 bytes, payloads below 4 GiB, any timestamp/seq) and the bytes arrive cut into arbitrary chunks, the decoder yields exactly those messages in order.", "quantifier": "all message sequences and all chunkings", "why_tests_cant": "The claim ranges over every message sequence and every way of cutting the byte stream; both sets are infinite, and a loop-back test sees only the few cuts its kernel happens to make.", "anchors": ["msg-wire/src/pubsub.rs: Codec::decode, Codec::encode, Message::new"]}
{"id": "C03", "title": "Authentication message survives any fragmentation", "statement": "A server in the authentication handshake that receives the client's encoded token obtains exactly that token, whatever way the bytes are split by the network, and never panics.", "quantifier": "all tokens and all chunkings of the encoded token", "why_tests_cant": "A loop-back test delivers the small token in one segment, so it never exercises a split.", "anchors": ["msg-wire/src/auth.rs: Codec::decode (AuthReceive), Codec::encode"]}
{"id": "C04", "title": "Decoders never panic and never invent or lose bytes", "statement": "For every byte stream and chunking, the request/reply and pub/sub decoders never panic; the bytes covered by the yielded messages followed by the bytes still buffered are exactly the bytes received.", "quantifier": "all byte streams (also malformed), all chunkings", "why_tests_cant": "It must hold for every byte string an attacker can send, in every fragmentation; tests and fuzzing only try finitely many malformed inputs.", "anchors": ["msg-wire/src/reqrep.rs: Codec::decode", "msg-wire/src/pubsub.rs: Codec::decode", "msg-wire/src/auth.rs: Codec::decode"]}
{"id": "C05", "title": "Foreign protocol bytes are rejected before being consumed", "statement": "A frame whose first byte is not the protocol's wire id yields an invalid-wire-id error carrying that byte, consumes nothing, and no message is ever produced from that point of the stream on: the error repeats for any further input.", "quantifier": "all byte streams starting with a foreign byte, all later input", "why_tests_cant": "It must hold for every foreign first byte and every continuation of the stream, however long.", "anchors": ["msg-wire/src/reqrep.rs: Codec::decode", "msg-wire/src/pubsub.rs: Codec::decode", "msg-wire/src/auth.rs: Codec::decode"]}
{"id": "C06", "title": "Decoding does not depend on read boundaries", "statement": "For an arbitrary (even malformed) byte stream, the sequence of messages and errors produced by a request/reply or pub/sub connection does not depend on how the transport split the stream into reads.", "quantifier": "all byte streams and all pairs of chunkings of it", "why_tests_cant": "It compares the results for any two chunkings of any stream; pairs of chunkings cannot be enumerated.", "anchors": ["msg-wire/src/reqrep.rs: Codec::decode", "msg-wire/src/pubsub.rs: Codec::decode", "tokio-util Framed (external, modelled)"]}
{"id": "C07", "title": "Every payload size accepted by the API is framed correctly", "statement": "Any payload handed to request(), respond() or publish() is delivered to the peer's decoder with the same length and content.", "quantifier": "all payload lengths, including 4 GiB and above", "why_tests_cant": "A 4 GiB test vector is impractical and boundaries are many.", "anchors": ["msg-wire/src/reqrep.rs: Message::new (as u32)", "msg-wire/src/pubsub.rs: Message::new (as u32)"]}
{"id": "C08", "title": "Compression is transparent", "statement": "For each compression type the receiver selects the matching decompressor from the wire header; if that algorithm's decompressor inverts its compressor the receiver obtains the original payload; type 0 is the identity; every unassigned type byte is rejected with an error, never passed through.", "quantifier": "all payloads, all 256 type bytes, all compressor/decompressor pairs that are inverse", "why_tests_cant": "Round trips through encode, compress and decompress are only sampled by tests; the claim is for all payloads, thresholds and codecs.", "anchors": ["msg-wire/src/compression/mod.rs: CompressionType, try_decompress_payload", "msg-socket/src/req/mod.rs: ReqMessage::compress, into_wire", "msg-socket/src/pub/mod.rs: PubMessage::compress, into_wire"]}
{"id": "C09", "title": "Compression threshold is honoured", "statement": "A payload smaller than the configured min_compress_size is sent uncompressed (type 0, bytes unchanged), and one of at least that size is compressed when a compressor is set — on request(), publish(), try_publish() and respond().", "quantifier": "all payload lengths, thresholds and compressors, on all four send paths", "why_tests_cant": "Four code paths times every payload size and threshold; a test picks a few sizes and easily misses the boundary value on one path.", "anchors": ["msg-socket/src/req/driver.rs: on_command", "msg-socket/src/pub/socket.rs: publish, try_publish", "msg-socket/src/rep/driver.rs: PeerState::poll_next", "msg-socket/src/rep/mod.rs: RepOptions::min_compress_size"]}
{"id": "C10", "title": "A response answers the request it belongs to", "statement": "Whatever the order in which responses arrive, a request() call that returns Ok(bytes) returns the (decompressed) payload of a response frame bearing the id that was put on the wire for that very call.", "quantifier": "all interleavings of requests, responses, timeouts, reconnections with fewer than 2^32 requests issued between a request and its completion", "why_tests_cant": "Responses may come in any order, late, duplicated or with invented ids, across reconnects; a test follows one schedule.", "anchors": ["msg-socket/src/req/driver.rs: on_message, on_command, check_timeouts"]}
{"id": "C11", "title": "A request completes at most once and nothing else completes it", "statement": "Each request() call receives at most one outcome; a duplicate, late or unknown-id response changes nothing observable (no outcome, no statistics).", "quantifier": "all event histories of the request socket", "why_tests_cant": "Exactly-once completion must survive every interleaving of answers, timeouts, reconnects and shutdown; histories are unbounded.", "anchors": ["msg-socket/src/req/driver.rs: on_message, check_timeouts"]}
{"id": "C12", "title": "Timeout check is exact", "statement": "When the periodic check runs at time t, exactly the outstanding requests issued more than `timeout` before t complete with Timeout; all other outstanding requests are untouched.", "quantifier": "all sets of outstanding requests, all times", "why_tests_cant": "Ranges over every set of pending requests, every timeout and every pair of clock values, including the exact boundary.", "anchors": ["msg-socket/src/req/driver.rs: check_timeouts"]}
{"id": "C13", "title": "Requests time out even while disconnected", "statement": "A request() issued on a connected-or-connecting socket completes with an outcome no later than the first timeout check after its deadline, also while the socket is reconnecting.", "quantifier": "all connection histories", "why_tests_cant": "Needs adversarial schedules (the peer goes away, or keeps sending) at every possible moment; tests use a cooperative peer.", "anchors": ["msg-socket/src/req/driver.rs: ReqDriver::poll"]}
{"id": "C14", "title": "Requests go out in order, exactly once, none lost while queued", "statement": "Frames handed to the connection are, in order, the accepted requests with ids 0,1,2,... (mod 2^32); a request leaves the queue only by being handed to a connection, also across reconnections.", "quantifier": "all histories of requests, back-pressure and reconnects", "why_tests_cant": "Back-pressure can occur before or after any frame; the number of schedules is unbounded.", "anchors": ["msg-socket/src/req/driver.rs: on_command, poll (egress_queue)"]}
{"id": "C15", "title": "The request socket reconnects when the connection is lost", "statement": "After an established connection is lost (protocol error, or the server closing it), the request socket goes back to trying to connect and later requests can succeed.", "quantifier": "all ways and times a connection can end", "why_tests_cant": "The connection may break at any point of any history and in several ways (error, reset, clean close).", "anchors": ["msg-socket/src/req/driver.rs: poll (Ready(None), Ready(Some(Err)))"]}
{"id": "C16", "title": "When the request driver stops, no caller hangs", "statement": "Once the background task of a request socket ends (retries exhausted, peer closed, socket dropped), every outstanding and every later request() resolves with SocketClosed (or its already produced result).", "quantifier": "all histories leading to termination", "why_tests_cant": "A caller hangs only in rare histories (driver ends between accepting a call and answering it); a test would need to hit every such point.", "anchors": ["msg-socket/src/req/driver.rs: poll", "msg-socket/src/req/socket.rs: request"]}
{"id": "C17", "title": "Reconnect back-off doubles and is bounded", "statement": "The i-th wait before a reconnection attempt lasts initial*2^i; after the n-th wait with n = max_retries the stream ends; so exactly max_retries-1 retries happen, after which it terminates, total wait initial*(2^max_retries-1).", "quantifier": "all initial durations and retry limits (no Duration overflow)", "why_tests_cant": "Ranges over every initial delay, limit and number of failures; long back-off sequences take hours in real time.", "anchors": ["msg-socket/src/connection/backoff.rs: ExponentialBackoff::poll_next"]}
{"id": "C18", "title": "Configured retry policy is respected", "statement": "ReqOptions::retry_attempts (None = retry indefinitely) and backoff_duration determine how often and with what delay the request socket retries.", "quantifier": "all option values and all numbers of consecutive failures", "why_tests_cant": "An option that is ignored shows only after many failures, and 'retries for ever' cannot be observed in finite time.", "anchors": ["msg-socket/src/req/mod.rs: ReqOptions", "msg-socket/src/req/socket.rs: try_connect", "msg-socket/src/req/driver.rs: reset_connection"]}
{"id": "C19", "title": "Round-trip/latency average stays between its samples and below the true mean", "statement": "The reported cumulative average is never below the smallest nor above the largest sample, never above the true mean of all samples and at most (n-1)/2 below it.", "quantifier": "all finite sample sequences (without machine overflow)", "why_tests_cant": "It is an inequality about every sequence of samples, with rounding at each step; tests check a few averages.", "anchors": ["msg-socket/src/req/stats.rs: update_rtt", "msg-socket/src/sub/stats.rs: update_latency"]}
{"id": "C20", "title": "The reported average follows the samples", "statement": "The reported cumulative average equals the true mean rounded down (documented CA formula), in particular it does not drift away from it by more than one unit.", "quantifier": "all sample sequences", "why_tests_cant": "The drift builds up over long sequences of samples with unlucky rounding, which tests do not generate.", "anchors": ["msg-socket/src/req/stats.rs: update_rtt", "msg-socket/src/sub/stats.rs: update_latency"]}
{"id": "C21", "title": "Byte counters count what is sent", "statement": "bytes_tx of a request, reply or publisher socket equals the number of bytes of all frames handed to connections.", "quantifier": "all histories of sends", "why_tests_cant": "Accounting identities must hold at every point of every history, including failed and partial sends.", "anchors": ["msg-socket/src/req/driver.rs: increment_tx", "msg-socket/src/rep/driver.rs", "msg-socket/src/pub/session.rs", "msg-wire/src/reqrep.rs: size", "msg-wire/src/pubsub.rs: size"]}
{"id": "C22", "title": "A reply reaches the requester and carries its id", "statement": "For each Request yielded by the reply socket, calling respond(x) causes exactly one frame, on the connection the request came from, with the id of that request, whose (decompressed) payload is x; requests that are dropped cause no frame; no other frame is ever sent.", "quantifier": "all interleavings of requests and responses over all peers", "why_tests_cant": "Any number of clients, requests answered in any order, clients leaving in between: the schedules are unbounded.", "anchors": ["msg-socket/src/rep/driver.rs: PeerState::poll_next, PendingRequest::poll", "msg-socket/src/rep/mod.rs: Request::respond"]}
{"id": "C23", "title": "A completed response is never left unsent by the driver", "statement": "When the reply driver goes idle (its poll returns Pending) no response that was already given via respond() is waiting to be turned into a frame.", "quantifier": "all sets of answered and dropped requests, in any order", "why_tests_cant": "Needs one particular order of completions and wake-ups between two polls of the same task.", "anchors": ["msg-socket/src/rep/driver.rs: PeerState::poll_next (pending_requests)"]}
{"id": "C24", "title": "max_clients is never exceeded", "statement": "With max_clients = m the number of simultaneously established or establishing client connections of a reply or publisher socket never exceeds m.", "quantifier": "all sequences of connects, handshakes, failures, disconnects", "why_tests_cant": "The limit must hold after every sequence of arrivals, departures, failed and pending handshakes.", "anchors": ["msg-socket/src/rep/driver.rs: RepDriver::poll", "msg-socket/src/pub/driver.rs: PubDriver::poll"]}
{"id": "C25", "title": "active_clients is accurate", "statement": "active_clients() equals the number of connections that are being established or are live; in particular it never underflows and a slot is returned for each connection that ends for whatever reason.", "quantifier": "all sequences of connects, handshakes (also malformed), failures, disconnects", "why_tests_cant": "The counter must be right after every history, including handshakes that fail or panic and address clashes.", "anchors": ["msg-socket/src/rep/driver.rs", "msg-socket/src/pub/driver.rs", "msg-socket/src/pub/session.rs: Drop", "msg-socket/src/rep/stats.rs", "msg-socket/src/pub/stats.rs"]}
{"id": "C26", "title": "No traffic from unauthenticated peers", "statement": "If an authenticator is configured, a request is yielded by the reply socket (and a subscription is honoured by the publisher) only for a connection whose client sent an auth message with a token the authenticator accepted; a rejected client receives a reject frame and its connection is dropped.", "quantifier": "all byte streams a client may send, all authenticators, all interleavings", "why_tests_cant": "Quantifies over everything an unauthenticated peer may send, in any fragmentation and at any time.", "anchors": ["msg-socket/src/rep/driver.rs: on_incoming", "msg-socket/src/pub/driver.rs: on_incoming", "msg-wire/src/auth.rs"]}
{"id": "C27", "title": "Clients do not disturb each other", "statement": "Connecting a new client to a reply socket leaves all other connected clients connected and served, on every transport.", "quantifier": "all sets of connected clients and all transports", "why_tests_cant": "Non-interference is a statement about pairs of histories with any number of clients; tests run one.", "anchors": ["msg-socket/src/rep/driver.rs: peer_states.insert", "msg-transport/src/ipc/mod.rs: PeerAddress for IpcStream, poll_accept"]}
{"id": "C28", "title": "Literal subscriptions behave like a set", "statement": "After any sequence of subscribe/unsubscribe with wildcard-free topics, a published topic is forwarded iff it is currently subscribed.", "quantifier": "all operation sequences and all topics", "why_tests_cant": "Ranges over all sequences of subscribe and unsubscribe with all topic strings.", "anchors": ["msg-socket/src/pub/trie.rs: PrefixTrie", "msg-socket/src/pub/session.rs: on_incoming, on_outgoing"]}
{"id": "C29", "title": "No message is forwarded without a matching subscription", "statement": "Whatever subscriptions (with * and > wildcards) are made and cancelled, a topic is forwarded only if it matches a currently held subscription under the documented wildcard rules.", "quantifier": "all operation sequences and topics", "why_tests_cant": "A false match may need an unlucky combination of earlier subscriptions and unsubscriptions; their sequences are unbounded.", "anchors": ["msg-socket/src/pub/trie.rs: insert, remove, contains"]}
{"id": "C30", "title": "Every matching message is forwarded (single-token wildcard)", "statement": "If a topic matches some current subscription made of literals and *, it is forwarded, irrespective of the other subscriptions held.", "quantifier": "all sets of subscriptions and topics", "why_tests_cant": "Whether a match is missed depends on which other subscriptions are present; the combinations are unbounded.", "anchors": ["msg-socket/src/pub/trie.rs: contains"]}
{"id": "C31", "title": "The > wildcard matches one or more trailing tokens", "statement": "A subscription foo.> forwards foo.bar and foo.bar.baz.", "quantifier": "all prefixes and all non-empty suffixes", "why_tests_cant": "Ranges over all topics, of any depth, and all sets of subscriptions.", "anchors": ["msg-socket/src/pub/trie.rs: insert, contains"]}
{"id": "C32", "title": "Unsubscribing undoes subscribing", "statement": "After subscribing a topic and later unsubscribing the same topic string, forwarding is as if it had never been subscribed, other subscriptions are unaffected, and when all are unsubscribed the filter holds no nodes.", "quantifier": "all topics (also with wildcards anywhere) and all other subscriptions", "why_tests_cant": "A leftover after unsubscribe depends on the whole history of the trie; histories are unbounded.", "anchors": ["msg-socket/src/pub/trie.rs: remove, inner_remove"]}
{"id": "C33", "title": "A subscriber sees published messages in order, without duplicates, with gap-free sequence numbers", "statement": "The messages sent on one subscriber connection are a subsequence of the published messages in publish order, each at most once, each matching the filter at the time it was taken, with consecutive sequence numbers from 0.", "quantifier": "all interleavings of publishes, subscriptions, lag and back-pressure", "why_tests_cant": "Depends on how publishing, sessions and slow connections interleave; tests see one schedule.", "anchors": ["msg-socket/src/pub/session.rs: SubscriberSession::poll, on_outgoing"]}
{"id": "C34", "title": "Only lagging by more than the buffer loses messages, and then the oldest", "statement": "A subscriber session misses a published message only if it was at least session_buffer_size messages behind at some time, and then exactly the oldest messages are lost.", "quantifier": "all publish/consume interleavings", "why_tests_cant": "Lag occurs only when a session falls behind by exactly the buffer size, at any point of any schedule.", "anchors": ["msg-socket/src/pub/session.rs: from_socket_bcast", "msg-socket/src/pub/socket.rs: try_bind (broadcast::channel)", "tokio broadcast (external, modelled)"]}
{"id": "C35", "title": "A malformed control message ends the session", "statement": "A publisher closes a session when the subscriber sends anything that is not a subscribe/unsubscribe control message (as documented by msg_to_control).", "quantifier": "all incoming messages", "why_tests_cant": "Ranges over every message a subscriber can send.", "anchors": ["msg-socket/src/pub/session.rs: msg_to_control, on_incoming, ControlMsg::Close"]}
{"id": "C36", "title": "Control messages mean what the subscriber asked", "statement": "The control frame produced for subscribe(t) / unsubscribe(t) is understood by the publisher as subscribe / unsubscribe of exactly t.", "quantifier": "all topics that are valid UTF-8 strings of at most 65525 bytes", "why_tests_cant": "Ranges over every topic string, including those that look like control messages.", "anchors": ["msg-wire/src/pubsub.rs: new_sub, new_unsub", "msg-socket/src/pub/session.rs: msg_to_control"]}
{"id": "C37", "title": "Subscribe/unsubscribe commands reach the publisher in the order issued", "statement": "Control frames are written to each publisher connection in the order in which subscribe/unsubscribe were called.", "quantifier": "all command sequences and all back-pressure patterns", "why_tests_cant": "Needs the connection to refuse a frame at one precise moment; tests never see back-pressure on a control frame.", "anchors": ["msg-socket/src/sub/session.rs: PublisherSession::poll (egress push_back)"]}
{"id": "C38", "title": "Later-connected publishers get all subscriptions", "statement": "A publisher connection established after subscribe(t) gets a subscribe command for t, for every currently subscribed topic.", "quantifier": "all sets of topics and all connection times", "why_tests_cant": "Depends on the number of topics and on the moment of the connection; small tests stay below the limits.", "anchors": ["msg-socket/src/sub/driver.rs: on_connection, subscribe", "msg-socket/src/sub/socket.rs: subscribe (doc)"]}
{"id": "C39", "title": "Subscription bookkeeping is a set and commands are minimal", "statement": "The set of subscribed topics after any command history equals the set computed by inserting/removing in order; a repeated subscribe or an unsubscribe of an unknown topic sends nothing to any publisher; a new one sends exactly one command to each active publisher.", "quantifier": "all command histories and publisher states", "why_tests_cant": "Set semantics must hold after every sequence of calls, with every order of duplicates.", "anchors": ["msg-socket/src/sub/driver.rs: subscribe, unsubscribe, on_command"]}
{"id": "C40", "title": "After disconnect(endpoint) no message from it is delivered", "statement": "Once the driver has processed disconnect(endpoint), no further message from that endpoint is delivered to the application until connect(endpoint) is called again, and its statistics are gone.", "quantifier": "all histories incl. connects in progress", "why_tests_cant": "A race between a message in flight (or a connection attempt in progress) and the disconnect; a test cannot force every interleaving.", "anchors": ["msg-socket/src/sub/driver.rs: on_command (Disconnect), on_connection"]}
{"id": "C41", "title": "The subscriber notices a lost publisher and reconnects", "statement": "When a publisher closes the connection, the subscriber's session ends and the driver starts reconnecting with back-off.", "quantifier": "all times at which the publisher closes", "why_tests_cant": "The publisher may vanish at any point and in any of several ways; in-process tests close connections in one way.", "anchors": ["msg-socket/src/sub/stream.rs: PublisherStream::poll_next", "msg-socket/src/sub/session.rs", "msg-socket/src/sub/driver.rs: poll_publishers"]}
{"id": "C42", "title": "One undecodable message does not hold up the following ones", "statement": "When the subscriber driver goes idle (poll returns Pending), no message received from any publisher session is still waiting in a session channel.", "quantifier": "all message sequences", "why_tests_cant": "Needs a corrupt message followed by silence, and a claim about all wake-ups.", "anchors": ["msg-socket/src/sub/driver.rs: poll_publishers (continue without progress)"]}
{"id": "C43", "title": "Messages from one publisher are delivered in order, unmodified, attributed to it", "statement": "The messages yielded by the subscriber socket from one publisher are, in order and without duplication, messages sent by that publisher, with its address as source, same topic and original payload; a message is dropped only if undecodable, when a buffer is full, or when the connection or the socket has been closed (by the application, or because the session crashed).", "quantifier": "all streams and schedules", "why_tests_cant": "Depends on the interleaving of several sessions, the driver and the application; schedules are unbounded.", "anchors": ["msg-socket/src/sub/driver.rs: poll_publishers", "msg-socket/src/sub/session.rs: on_incoming", "msg-socket/src/sub/stream.rs"]}
{"id": "C44", "title": "Reserved topics are refused", "statement": "subscribe, try_subscribe, unsubscribe, try_unsubscribe return ReservedTopic and send no command iff the topic starts with MSG.", "quantifier": "all topics", "why_tests_cant": "Ranges over all topic strings and all four calls that take one.", "anchors": ["msg-socket/src/sub/socket.rs"]}
{"id": "C45", "title": "Oversized topics are refused, not fatal", "statement": "No topic accepted by subscribe() or publish() can crash a session task.", "quantifier": "all topics of all lengths", "why_tests_cant": "Ranges over all lengths; the limit is a 16-bit field that ordinary tests never reach.", "anchors": ["msg-wire/src/pubsub.rs: Message::new (expect)", "msg-socket/src/pub/session.rs: on_outgoing", "msg-socket/src/sub/session.rs: subscribe"]}
{"id": "C46", "title": "At most one connection attempt per publisher, and a finished one frees the slot", "statement": "There is never more than one connection task per address; after a task has finished — for whatever reason — a new one can be started for that address.", "quantifier": "all sequences of spawn/complete/panic", "why_tests_cant": "Depends on histories of attempts that succeed, fail, panic or are cancelled in any order.", "anchors": ["msg-common/src/task.rs: JoinMap::spawn, poll_join_next", "msg-socket/src/sub/driver.rs: connect"]}
{"id": "C47", "title": "disconnect() undoes connect() for the same endpoint string", "statement": "disconnect(e) after connect(e) removes the publisher that connect(e) added, for every endpoint e.", "quantifier": "all IP endpoints, also unspecified addresses", "why_tests_cant": "Ranges over all addresses of both families, including unspecified ones.", "anchors": ["msg-socket/src/sub/socket.rs: connect, try_connect, disconnect, try_disconnect"]}
{"id": "C48", "title": "Dropping the subscriber socket releases its resources", "statement": "After the SubSocket is dropped its background task terminates and its publisher connections are closed.", "quantifier": "all states at the time of the drop", "why_tests_cant": "Must hold in whatever state the socket is dropped: connecting, connected, with queued commands or messages.", "anchors": ["msg-socket/src/sub/socket.rs: Drop", "msg-socket/src/sub/driver.rs: poll, on_command(Shutdown)"]}
{"id": "C49", "title": "A client uses a connection only after an explicit acknowledgement", "statement": "With an auth token configured, a request or subscriber socket activates a connection only if the server's first frame is an ack; on reject, foreign bytes, or EOF it does not.", "quantifier": "all server byte streams and chunkings", "why_tests_cant": "Quantifies over everything a server may answer, cut anywhere, and every way its stream may end.", "anchors": ["msg-socket/src/req/driver.rs: try_connect", "msg-socket/src/sub/driver.rs: connect", "msg-wire/src/auth.rs"]}
{"id": "C50", "title": "bind() uses the first address that works", "statement": "On a socket whose transport is not bound yet, try_bind tries the addresses in order and stops at the first success, local_addr() is then the address of that listener, and NoValidEndpoints is returned iff none can be bound.", "quantifier": "all address lists and all bind outcomes", "why_tests_cant": "Ranges over all lists of addresses and all combinations of which of them can be bound.", "anchors": ["msg-socket/src/rep/socket.rs: try_bind", "msg-socket/src/pub/socket.rs: try_bind"]}
{"id": "C51", "title": "accept() does not lose connections", "statement": "TransportExt::accept resolves with an inbound connection even if its handshake needs several polls.", "quantifier": "all handshake durations", "why_tests_cant": "A connection is lost only if the handshake is not complete at the moment of one poll; timing decides.", "anchors": ["msg-transport/src/lib.rs: Acceptor::poll", "msg-transport/src/quic/mod.rs: poll_accept"]}
{"id": "C52", "title": "Topic strings survive the wire", "statement": "A topic published as a Rust string is yielded to the subscriber as the identical string; invalid UTF-8 on the wire never causes a panic and always yields a valid string.", "quantifier": "all strings / all byte sequences", "why_tests_cant": "Ranges over all byte sequences, valid UTF-8 or not.", "anchors": ["msg-socket/src/sub/stream.rs: from_utf8_lossy", "msg-socket/src/pub/session.rs: msg_to_control"]}
{"id": "C53", "title": "End-to-end request/reply", "statement": "For a request socket connected to a reply socket over a reliable ordered byte stream (any fragmentation) where the application answers request payload q with f(q), each request(q) that returns Ok returns f(q), and with codecs/compressors that are inverse.", "quantifier": "all request sequences (< 2^32), all response orders, all fragmentations", "why_tests_cant": "All interleavings of two sockets times all fragmentations, losses of connections and inputs.", "anchors": ["msg-socket/src/req/driver.rs", "msg-socket/src/rep/driver.rs", "msg-wire/src/reqrep.rs"]}
{"id": "C54", "title": "End-to-end publish/subscribe", "statement": "For a publisher socket and a subscriber socket connected over reliable ordered byte streams (any fragmentation, delays, losses of connections, reconnections, other peers): the frames received by the subscriber on a connection are a prefix of those the publisher wrote on it, and likewise for the control frames in the other direction; the messages the subscriber's application obtains from one connection are a subsequence of the publish()/try_publish() calls (same topic and payload, in order, each at most once) for any compressor with its inverse; each of them matches a topic the application subscribed to that was held on this connection; and once everything has arrived, nothing was refused for lack of room and the connection is up, the application has obtained exactly the messages that were due on it.", "quantifier": "all sequences of publish/subscribe/unsubscribe/connect/disconnect calls, all interleavings of the two sockets' tasks, all fragmentations and connection failures", "why_tests_cant": "All interleavings of two sockets times all fragmentations, losses of connections and inputs.", "anchors": ["msg-socket/src/pub/session.rs", "msg-socket/src/pub/driver.rs", "msg-socket/src/sub/session.rs", "msg-socket/src/sub/driver.rs", "msg-wire/src/pubsub.rs"]}
{"id": "C55", "title": "Handshake loses no application bytes", "statement": "No application frame is lost in the switch from the authentication codec to the message codec (the handshake read buffer is discarded).", "quantifier": "all byte streams/chunkings in which the client waits for the ack", "why_tests_cant": "Bytes are lost only if application data arrives in the same read as the end of the handshake; timing decides.", "anchors": ["msg-socket/src/rep/driver.rs: conn.into_inner()", "msg-socket/src/sub/driver.rs: conn.into_inner()", "msg-socket/src/req/driver.rs: try_connect"]}
{"id": "C56", "title": "Simulation ids are unique and restart keeps the simulation", "statement": "Simulator::start returns pairwise distinct ids, usable as pipe numbers however the Simulator was made (new or default); restarting an endpoint leaves exactly the new simulation active; stop removes it.", "quantifier": "all start/stop histories", "why_tests_cant": "Depends on histories of starts and stops of several simulations.", "anchors": ["msg-sim/src/lib.rs: Simulator", "msg-sim/src/dummynet.rs: PacketFilter::enable, destroy"]}
{"id": "C57", "title": "Background polling terminates", "statement": "One poll of each background task returns (Pending or Ready) after finitely many loop iterations if no new external events occur.", "quantifier": "all driver states", "why_tests_cant": "Termination of each poll must hold in every state and for every behaviour of the environment.", "anchors": ["msg-socket/src/req/driver.rs: poll", "msg-socket/src/rep/driver.rs: poll", "msg-socket/src/pub/session.rs: poll", "msg-socket/src/sub/session.rs: poll", "msg-socket/src/sub/driver.rs: poll"]}
{"id": "C58", "title": "The reply socket yields each request faithfully", "statement": "The requests yielded by the reply socket are the request messages received on its connections, each at most once, in the order in which they were taken from the connections, with the source address of their connection and the decompressed payload; a received request is withheld only if it cannot be decompressed, the socket was dropped, or 1024 requests are already waiting.", "quantifier": "all request sequences, clients and schedules", "why_tests_cant": "Concurrent clients, compression failures and a full channel may occur at any point of any history.", "anchors": ["msg-socket/src/rep/driver.rs: poll, PeerState::poll_next", "msg-socket/src/rep/socket.rs: poll_next"]}
{"id": "C59", "title": "A message cut off by the end of the connection is reported", "statement": "If the peer closes the connection in the middle of a message, the messages received completely before it are delivered, the cut one is not, and the end of the stream is reported as an error, not as an orderly close.", "quantifier": "all frame sequences, all cut positions, all fragmentations", "why_tests_cant": "Ranges over all cut points of all streams.", "anchors": ["msg-wire/src/reqrep.rs: Codec::decode", "msg-wire/src/pubsub.rs: Codec::decode", "msg-socket/src/req/driver.rs: poll"]}
{"id": "C60", "title": "No request is left behind while the request socket is idle", "statement": "Whenever the background task of a request socket goes to sleep with an established connection that accepts data, every request() call made so far has been handed to the connection.", "quantifier": "all histories and all polls", "why_tests_cant": "Idleness can be reached through every schedule; a lost wake-up or skipped queue shows in few of them.", "anchors": ["msg-socket/src/req/driver.rs: poll"]}
{"id": "C61", "title": "Receive statistics describe exactly the answered requests", "statement": "bytes_rx is the number of bytes received in responses that were delivered to a caller and one round-trip time (from acceptance to arrival, in microseconds) is recorded per answered request; timeouts, undecodable and stray responses are not counted.", "quantifier": "all histories", "why_tests_cant": "Accounting identity over every history of answers, late answers and errors.", "anchors": ["msg-socket/src/req/driver.rs: on_message", "msg-socket/src/req/stats.rs"]}
{"id": "C62", "title": "At most one connection attempt at a time", "statement": "A request socket never starts a connection attempt while a previous one is still in flight.", "quantifier": "all histories", "why_tests_cant": "Overlapping attempts would need a particular order of failures, ticks and successes.", "anchors": ["msg-socket/src/req/driver.rs: poll, try_connect"]}
{"id": "C63", "title": "An idle publisher session is up to date", "statement": "When a subscriber session of a publisher goes to sleep with a connection that accepts data, every message published since the session started was considered (unless lost by lagging), every matching one was written, and the connection was flushed if a flush was allowed.", "quantifier": "all histories and all polls", "why_tests_cant": "Idleness can be reached through every schedule of publishing, lag and back-pressure.", "anchors": ["msg-socket/src/pub/session.rs: SubscriberSession::poll"]}
{"id": "C64", "title": "A sleeping background task has nothing left to do", "statement": "Whenever a background task of a socket goes to sleep (its poll returns Pending), everything it could make progress on has been polled in that same pass and was not ready: no command, message, connection or handshake that is already available is left unprocessed.", "quantifier": "all task states and all answers of the environment", "why_tests_cant": "A lost wake-up shows only under particular interleavings; quantifies over all of them.", "anchors": ["msg-socket/src/req/driver.rs: poll", "msg-socket/src/rep/driver.rs: poll", "msg-socket/src/pub/driver.rs: poll", "msg-socket/src/pub/session.rs: poll", "msg-socket/src/sub/driver.rs: poll", "msg-socket/src/sub/session.rs: poll"]}
{"id": "C65", "title": "Subscriber statistics are truthful", "statement": "For every publisher a subscriber is connected to, bytes_rx equals the number of payload bytes received from it on the current connection, and the latency is the moving average of the measured latencies of those messages; a publisher without an established connection has no entry.", "quantifier": "all histories", "why_tests_cant": "Invariant over histories of concurrent sessions, disconnects and re-connects.", "anchors": ["msg-socket/src/sub/stats.rs", "msg-socket/src/sub/session.rs: on_incoming", "msg-socket/src/sub/driver.rs"]}
{"id": "C66", "title": "Failed or repeated bind() and connect() are reported, not fatal", "statement": "bind() or connect() that fails returns an error and can be tried again; a second bind() or connect() and the use of a socket that is not bound or connected return an error rather than panic.", "quantifier": "all histories of calls on a request, reply or publisher socket and all outcomes of binding", "why_tests_cant": "Ranges over all sequences of calls with all outcomes of the system calls.", "anchors": ["msg-socket/src/rep/socket.rs: try_bind, poll_next", "msg-socket/src/pub/socket.rs: try_bind, publish", "msg-socket/src/req/socket.rs: try_connect, request"]}
{"id": "C67", "title": "Every option value gives a usable socket", "statement": "No value passed to the option builders (timeouts, intervals, buffer sizes) makes constructing, binding or connecting the socket, or accepting its first client, panic.", "quantifier": "all option values", "why_tests_cant": "Ranges over all values of all options; only extreme ones fail.", "anchors": ["msg-socket/src/req/socket.rs: try_connect", "msg-socket/src/pub/socket.rs: try_bind", "msg-socket/src/pub/driver.rs: poll, on_incoming", "msg-socket/src/sub/socket.rs: with_options"]}
{"id": "C68", "title": "accept() serves the address the transport is bound to", "statement": "After a successful bind() of a transport, accept() yields the connections made to the address that local_addr() reports.", "quantifier": "all histories of bind and accept", "why_tests_cant": "Ranges over all histories of bind and accept.", "anchors": ["msg-transport/src/tcp/mod.rs", "msg-transport/src/ipc/mod.rs", "msg-transport/src/quic/mod.rs: bind, poll_accept"]}
{"id": "C69", "title": "Binding does not take a path away from its owner", "statement": "Binding an IPC socket never takes over the path of another live socket and never deletes somebody else's file.", "quantifier": "all file system contents", "why_tests_cant": "Ranges over all states of the file system and of other processes.", "anchors": ["msg-transport/src/ipc/mod.rs: bind"]}
{"id": "C70", "title": "A bi-directional channel delivers in order, exactly once, with bounded buffers", "statement": "For the channel pair of msg-common: each end receives exactly the messages successfully sent by the other, in order; a send is refused as full iff the configured number of messages is waiting, and as closed iff the other end is gone; the end of the stream is reported iff the other end is gone and everything was received.", "quantifier": "all interleavings of uses and drops of the two ends", "why_tests_cant": "All interleavings of uses and drops of the two ends, all buffer sizes.", "anchors": ["msg-common/src/channel.rs"]}
{"id": "C71", "title": "Authentication holds end to end", "statement": "If the server (reply or publisher socket) has an authenticator and the client has no token, or one the authenticator does not accept, then none of the client's requests or subscriptions is ever received, nothing is ever sent to it, no request() of it returns Ok and its subscriber yields nothing from this publisher. Conversely a client with a token uses a connection only if the server has an authenticator and it accepted exactly this token.", "quantifier": "all joint histories of a client and a server socket (all interleavings, fragmentations, losses of connections and reconnects, other clients and servers), all tokens (shorter than 2^32 bytes) and authenticators", "why_tests_cant": "a test shows one refused client; that no interleaving, fragment boundary or reconnect lets an unaccepted client in needs a proof over all joint histories", "anchors": ["msg-socket/src/req/driver.rs: connect task", "msg-socket/src/rep/driver.rs: ServerAuthenticator / auth tasks", "msg-socket/src/pub/driver.rs", "msg-socket/src/sub/driver.rs", "msg-wire/src/auth.rs"]}
{"id": "C72", "title": "Partial writes lose, repeat and reorder nothing", "statement": "What the transport has taken on a connection, followed by what is still buffered, is always exactly the encodings of the messages given to that connection, in order; a flush or close that reports success has put all of them on the wire. So the reader sees a prefix of the messages, and after a successful flush all of them.", "quantifier": "all sequences of poll_ready / start_send / poll_flush / poll_close by the owner (and all histories of the four sockets), all answers of the transport to writes (any number of bytes, not ready, errors, zero bytes), all cuts of the byte stream at the reader", "why_tests_cant": "how many bytes a write takes is chosen by the kernel; tests on a loop-back interface practically always see complete writes", "anchors": ["msg-socket/src/req/driver.rs: poll", "msg-socket/src/rep/driver.rs: poll_next", "msg-socket/src/pub/session.rs: poll", "msg-socket/src/sub/stream.rs: poll_send, poll_flush", "tokio-util Framed (write half)"]}
{"id": "C73", "title": "The write buffer of a connection is bounded by the back-pressure boundary", "statement": "A connection buffers at most the back-pressure boundary plus one frame, however slow the peer is. (Holds as long as the transport reports no write error; with a connection whose writes fail, the request, reply and publisher sockets keep appending frames without bound. The subscriber's buffer is bounded whatever happens.)", "quantifier": "all histories of the four sockets, all boundaries, all answers of the transport to writes", "why_tests_cant": "needs a peer that is slow or a connection that fails at every point of every history", "anchors": ["msg-socket/src/req/driver.rs: poll (poll_ready)", "msg-socket/src/rep/driver.rs: poll_next (poll_ready)", "msg-socket/src/pub/session.rs: poll (poll_ready)", "msg-socket/src/sub/stream.rs: poll_send"]}
{"id": "C74", "title": "A connection that cannot be written to any more is given up", "statement": "If every write on a connection fails, the socket gives the connection up: the request socket reconnects, the reply and publisher sockets end the session, the subscriber ends its session. (Refuted for all four, as long as reading reports nothing; in the subscriber one failed flush suppresses a subscription for good, even if the transport recovers.)", "quantifier": "all histories in which writes fail while nothing can be read, all numbers of iterations", "why_tests_cant": "needs a transport whose write side fails while its read side stays silent, for an unbounded time", "anchors": ["msg-socket/src/req/driver.rs: poll", "msg-socket/src/rep/driver.rs: poll_next", "msg-socket/src/pub/session.rs: poll", "msg-socket/src/sub/stream.rs: poll_flush"]}
{"id": "C75", "title": "What was sent is flushed before the task sleeps", "statement": "Whenever the task of a connection goes to sleep, everything handed to the connection has been written to the transport, unless the task is waiting for the configured flush interval or the transport did not complete the flush tried in that iteration. (For the subscriber: provided no earlier flush failed.)", "quantifier": "all histories of the four sockets and all iterations that end in Pending, all answers of the transport", "why_tests_cant": "a forgotten flush shows only if nothing else happens on the connection afterwards, at any point of any history", "anchors": ["msg-socket/src/req/driver.rs: poll, should_flush", "msg-socket/src/rep/driver.rs: poll_next", "msg-socket/src/pub/session.rs: poll, should_flush", "msg-socket/src/sub/stream.rs: poll_next"]}
{"id": "C76", "title": "Nothing is stuck between a request and a reply socket", "statement": "When nothing is left to read or write between a request socket and a reply socket (everything written on the connection was read, both sides have empty queues), every request() call has its result, or its request was delivered to the server and the server's application has not answered it (it holds it, discarded it, or it was not deliverable, or the answer could not be compressed), or the request was lost with another connection. With a single connection that did not fail and an application that answered everything, every call has a result.", "quantifier": "all sequences of calls of both applications, all interleavings of the two sides, all fragmentations of the byte streams, all reconnects, with and without authentication and compression", "why_tests_cant": "a call that is forgotten somewhere shows only as a result that never comes; a test can only wait for a while, on a few schedules", "anchors": ["msg-socket/src/req/driver.rs: poll, on_message, on_send", "msg-socket/src/rep/driver.rs: poll_next, poll", "msg-socket/src/req/socket.rs: request", "msg-socket/src/rep/socket.rs: recv"]}
{"id": "C77", "title": "A request socket and a reply socket can always finish what is under way", "statement": "Whatever happened before (reconnects, lost frames, timeouts, other clients), as long as the two sockets have a working connection, everything under way can still be finished: if from then on the transport takes frames and delivers data and the server application takes requests and answers them, then within a bounded number of steps (at most 8 for each call) neither side has anything left to do, nothing fails meanwhile, and every request() call that had no result returns Ok with the server's answer to its own payload, unless its frame had been lost before.", "quantifier": "all histories that lead to a connected pair, all server functions, all fragmentations met on the way there, with and without authentication and compression", "why_tests_cant": "a deadlock (a decoder stuck in the middle of a frame, a response that is queued and never written, an id that blocks) shows only in the history that leads to it; no test visits them all", "anchors": ["msg-socket/src/req/driver.rs: poll, on_message, on_send", "msg-socket/src/rep/driver.rs: poll_next, poll", "msg-socket/src/req/socket.rs: request", "msg-socket/src/rep/socket.rs: recv, respond"]}
{"id": "C78", "title": "A request socket that lost its connection can get a new one, and its unwritten requests survive", "statement": "Whatever happened before, a request socket without a connection that has a retry left (or an attempt under way) can get connected again if the server is there, has room and accepts its token: within 8 steps, at the latest when the back-off timer expires (or 20 ms from now). On the way no call, request or response is lost and the server's other connections are untouched. Afterwards, if everybody does his job, every request() call without a result returns Ok with the server's answer in a bounded number of steps, unless its request had already been given to a connection before.", "quantifier": "all histories that leave the socket without a connection (initial connect, failed attempts, failed handshakes, read and write errors), all fragmentations, all other clients, with and without authentication and compression", "why_tests_cant": "the state left behind by a broken connection or handshake depends on the whole history; a test breaks the connection at a few points only", "anchors": ["msg-socket/src/req/driver.rs: poll, try_connect, reset_connection", "msg-socket/src/rep/driver.rs: poll, on_incoming", "msg-socket/src/connection/backoff.rs: poll_next"]}
{"id": "C79", "title": "A subscriber and a publisher can always finish what is under way", "statement": "Whatever happened before, as long as a subscriber and a publisher are in touch over a working connection, everything under way can still be finished: if from then on the transport takes frames and delivers data, the tasks run and the application takes messages, then within a bounded number of steps (at most 5 for each message, 3 for each subscription command) nothing is left to do; meanwhile nothing is refused, no connection ends and nothing else changes. Then the application has obtained, each once and in the order of publication, exactly the messages that were due to the connection before and, of those the publisher's session had not looked at, the ones that pass its subscriptions, except those that had already been pushed out of the session buffer.", "quantifier": "all histories that lead to a connected pair (reconnects, lag, refused messages, other publishers and subscribers), all fragmentations met on the way there, all buffer sizes, with and without authentication and compression", "why_tests_cant": "a deadlock (a decoder stuck in the middle of a frame, a queue that is full and nobody empties, a message in hand that is never written) shows only in the history that leads to it; no test visits them all", "anchors": ["msg-socket/src/sub/driver.rs: poll, on_command", "msg-socket/src/sub/session.rs: poll", "msg-socket/src/sub/stream.rs: poll_next", "msg-socket/src/pub/session.rs: poll", "msg-socket/src/sub/socket.rs: poll_next"]}
{"id": "C80", "title": "Subscribing and unsubscribing take effect", "statement": "When subscriber and publisher are at rest and the application subscribes to a new topic, then, if everybody does his job, they come to rest again with the publisher's filter for this connection extended by exactly this topic, and of the messages published then (not more than the session buffer holds) the application obtains exactly those the filter lets through, in order: every message of the topic (unless `>` is used), and only messages matching a held subscription. After unsubscribe, likewise, only messages that match a subscription that is still held are obtained.", "quantifier": "all histories that lead to a connected pair at rest, all topics that fit the wire format and are not reserved, all batches of messages up to the session buffer's capacity, with and without authentication and compression", "why_tests_cant": "that a subscription works after one history says nothing about the others: the command goes through two queues, two encoders and a trie whose state depends on everything before", "anchors": ["msg-socket/src/sub/socket.rs: subscribe, unsubscribe", "msg-socket/src/sub/driver.rs: on_command, subscribe, unsubscribe", "msg-socket/src/sub/session.rs: poll", "msg-socket/src/pub/session.rs: on_incoming, poll", "msg-socket/src/pub/trie.rs"]}
{"id": "C81", "title": "Under every fair schedule, everything under way between a request and a reply socket is answered", "statement": "If a request and a reply socket have a working connection, then under every schedule in which, from then on, the client's driver, the server's connection and the server application again and again get a turn (in any order, at any speed, with the streams cut into pieces in any way, readiness coming and going) and do nothing but their job, and the application answers every request it takes, some moment comes from which on nothing is left to do, for ever; nothing fails until then, and every request() call that had no result returns Ok with the server's answer to its own payload, unless its frame had been lost before. The requests on their way must fit into the server application's queue of 1024. Such schedules exist from every such state.", "quantifier": "all infinite fair schedules (orders, fragmentations, timings, choices among several responses), from every connected state, all server functions, with and without authentication and compression", "why_tests_cant": "a starvation or a livelock needs an infinite run to show, and there are uncountably many schedules; a test sees finite prefixes of a few of them", "anchors": ["msg-socket/src/req/driver.rs: poll, on_message, on_send", "msg-socket/src/rep/driver.rs: poll_next, poll", "msg-socket/src/req/socket.rs: request", "msg-socket/src/rep/socket.rs: recv, respond"]}
{"id": "C82", "title": "Under every fair schedule, everything published arrives and subscriptions take effect", "statement": "If a subscriber and a publisher have a working connection, then under every schedule in which, from then on, the subscriber's driver, its session, the publisher's session and the application that takes messages again and again get a turn (in any order, at any speed, with the streams cut into pieces in any way and the transport taking any number of frames at a time) and do nothing but their part, some moment comes from which on nothing is left to do, for ever; until then nothing is refused or lost, no connection ends and nothing else changes. Then the application has obtained, in order of publication and each once, exactly the messages due to the connection and those not yet looked at that its filter lets through (except those already pushed out of the session buffer). So what is published at rest arrives, and a new subscription takes effect, under every fair schedule. The messages on their way must fit into the subscriber's buffers. Such schedules exist from every such state.", "quantifier": "all infinite fair schedules (orders, fragmentations, timings, numbers of frames accepted), from every connected state, all batches of messages and topics, with and without authentication and compression", "why_tests_cant": "a starvation or a livelock needs an infinite run to show, and there are uncountably many schedules; a test sees finite prefixes of a few of them", "anchors": ["msg-socket/src/sub/driver.rs: poll", "msg-socket/src/sub/session.rs: poll", "msg-socket/src/pub/session.rs: poll", "msg-socket/src/sub/socket.rs: subscribe, poll_next", "msg-socket/src/pub/socket.rs: publish"]}
{"id": "C83", "title": "Dropping a request, reply or publisher socket shuts its service down", "statement": "When the application drops its socket, the background tasks finish what was begun and end: a request socket's task sends the calls still queued, closes the connection and ends; a publisher's sessions deliver what was published before and end; a reply socket stops serving, except that requests the application still holds can be answered. (Proved while the connections are up and read by the peer. Refuted otherwise: a disconnected request task goes on dialling, a session whose subscriber does not read never ends, and the publisher and reply drivers never notice: they accept and serve new connections, and reply clients' new requests are read and silently thrown away.)", "quantifier": "all histories up to the drop, all continuations", "why_tests_cant": "the moment of the drop and what is in flight then can be anything, and `never ends' cannot be seen in any finite test", "anchors": ["msg-socket/src/req/driver.rs: poll", "msg-socket/src/rep/driver.rs: poll", "msg-socket/src/pub/driver.rs: poll", "msg-socket/src/pub/session.rs: poll", "msg-socket/src/rep/mod.rs: Request::respond"]}
{"id": "C84", "title": "A slow, flooding or misbehaving peer does not disturb the others", "statement": "What the subscribers of a publisher receive, and when, does not depend on what the others do (read nothing, flood, disconnect, crash), apart from the places max_clients leaves; likewise what a subscriber gets from a publisher, sends to it and hands to the application does not depend on the other publishers, and a client of a reply socket is served the same whatever the other clients do. (Proved for the publisher; for subscriber and reply socket unless the queue to the application overflows or, at a reply socket, another client takes over the address. Refuted for the shared queues: the queue to the application of reply and subscriber sockets is shared and drops what does not fit: one client of a reply socket can make the requests of all others vanish unanswered, and one publisher can make a subscriber lose the messages of another.)", "quantifier": "all pairs of histories that differ only in the behaviour of one peer", "why_tests_cant": "it compares pairs of executions; a test sees single ones", "anchors": ["msg-socket/src/pub/session.rs: poll", "msg-socket/src/pub/driver.rs: poll", "msg-socket/src/rep/driver.rs: poll (try_send)", "msg-socket/src/sub/driver.rs: poll_publishers, on_message"]}
{"id": "C85", "title": "Memory held for a slow peer is bounded", "statement": "However slow a peer is, the socket keeps only a bounded number of messages for it. (Proved for publisher sessions: fewer than twice session_buffer_size; for the subscriber's inbound and command queues and for the reply socket's queue of requests. Refuted for the outgoing queues of request driver, reply peer and subscriber session: they go on accepting work while the connection accepts nothing, and keep the frames of requests that have timed out.)", "quantifier": "all histories; for the refutations: every size", "why_tests_cant": "unboundedness is about all sizes, and a bound about all schedules of fast producers and slow consumers", "anchors": ["msg-socket/src/pub/session.rs: poll", "msg-socket/src/req/driver.rs: poll, on_send", "msg-socket/src/rep/driver.rs: poll_next", "msg-socket/src/sub/session.rs: poll", "msg-socket/src/sub/driver.rs: poll"]}
{"id": "C86", "title": "A subscriber that has no connection finds its way back, with its subscriptions", "statement": "Whatever happened before: a subscriber that was told to connect to a publisher, has no connection to it (attempts failed, or the session ended) and has a retry left or an attempt under way, can get a new connection if the publisher lets it in, in at most 8 steps, the last at the latest when the back-off's timer says so. All else is as before: topics, queued calls and messages, other publishers, connections, sessions. The new session is told the topics subscribed (the first 64); when both sides have done their work, the publisher's filter for the new connection consists of exactly these, and of the messages published then the application obtains exactly those it lets through, in order: with at most 64 topics, each message of a subscribed topic, and only messages matching one. (A lost connection that the session does not notice is C41.)", "quantifier": "all event sequences before, all states of handshake and back-off, all topics, all batches of messages", "why_tests_cant": "reconnection is tried by tests from one or two states; here it is every reachable state of both drivers, the handshake, the back-off and the queues", "anchors": ["msg-socket/src/sub/driver.rs: poll, poll_publishers, connect, reset_publisher, on_connection", "msg-socket/src/sub/session.rs: poll", "msg-socket/src/pub/driver.rs: poll", "msg-socket/src/pub/session.rs: poll", "msg-common/src/task.rs: JoinMap"]}
{"id": "C87", "title": "Options keep the value they were last given", "statement": "Whatever chain of option setters is called, each option of each socket ends up with the value it was last given, or its documented default if it was not set, independently of the others; every documented choice can be made. (Proved, except that three choices cannot be made: blocking_connect cannot be switched off, a publisher without flush interval cannot be had, and backoff_duration and retry_attempts change nothing.)", "quantifier": "all chains of setter calls, all values", "why_tests_cant": "chains of calls are unbounded, and a setter that also touches another option shows only if that one was set before", "anchors": ["msg-socket/src/req/mod.rs: ReqOptions", "msg-socket/src/rep/mod.rs: RepOptions", "msg-socket/src/pub/mod.rs: PubOptions", "msg-socket/src/sub/mod.rs: SubOptions"]}
{"id": "C88", "title": "A QUIC configuration carries the bandwidth it was built for", "statement": "For every bandwidth and round-trip time given to the configuration builder, build() succeeds and the flow-control windows hold at least the bandwidth-delay product, so that the stream can reach the configured bandwidth; keep-alives keep an idle connection open. (Refuted for bandwidths below 1000 bytes per second: the window is 0; for products beyond 32 bits: panic, or a silently tiny window; for keep-alive intervals longer than the idle timeout. Proved for all others.)", "quantifier": "all values of all builder options", "why_tests_cant": "ranges over all 32-bit bandwidths and round-trip times; only extreme ones fail", "anchors": ["msg-transport/src/quic/config.rs: ConfigBuilder::build, Config::default"]}
{"id": "C89", "title": "A simulation has the configured conditions", "statement": "A simulation started with a latency, a bandwidth, a loss rate and protocols subjects the traffic of these protocols to its endpoint to exactly these conditions; stopping it removes the pipe it created. (Proved for bandwidth, latency in whole milliseconds, defaults and removal. Refuted for the loss rate, a percentage handed on as a fraction, and for the protocols, which are ignored.)", "quantifier": "all configurations, ids and endpoints", "why_tests_cant": "needs root on macOS (the repository's own tests of it are ignored), and all configurations", "anchors": ["msg-sim/src/lib.rs: Simulation::start", "msg-sim/src/dummynet.rs: Pipe::build_cmd, destroy_cmd, PacketFilter::apply_dummynet_rule", "msg-sim/src/protocol.rs: Protocol"]}
{"id": "C90", "title": "No work waits for ever behind other work", "statement": "Each task of a socket has several sources of work (calls of the application, frames from the peer, frames to the peer, new connections, timers). While the connections work, every piece of work is done after a number of turns of its task that is bounded by the work of its own kind before it; a source that always has something to offer does not hold up the others. (Proved with explicit bounds for: requests while the server is silent, responses, reading requests from a client, messages to a subscriber, subscriptions while nothing is published, control frames of a subscriber while the publisher is silent. Refuted, with runs of every length, for: calls, frames and timeouts of a request socket whose server keeps sending; new connections of a reply socket while a client keeps sending; subscriptions at a publisher that keeps publishing; commands and control frames of a subscriber whose publisher keeps sending.)", "quantifier": "all histories, all numbers of turns, all sockets and options", "why_tests_cant": "starvation is the absence of an event over an unbounded time; a test can only wait a while, and the bounds range over all queues and histories", "anchors": ["msg-socket/src/req/driver.rs: ReqDriver::poll", "msg-socket/src/rep/driver.rs: RepDriver::poll, PeerState::poll_next", "msg-socket/src/pub/session.rs: SubscriberSession::poll", "msg-socket/src/sub/session.rs: PublisherSession::poll", "msg-socket/src/sub/driver.rs: SubDriver::poll"]}
{"id": "C91", "title": "An unfinished handshake does not hold a place for ever", "statement": "A peer that connects and then says nothing does not hold up the others: a place taken by a connection in its handshake (of a reply socket or a publisher with a client limit) or by a connection attempt (of a request socket or a subscriber) becomes free again after some time even if the peer stays silent; and it becomes free at once when the handshake fails. (The second half is proved. The first is refuted for all four sockets: no handshake has a time limit, so as many silent clients as there are places lock a reply socket or publisher for ever; a silent server stalls a request socket, whose calls do not even time out; a silent publisher blocks its address at a subscriber.)", "quantifier": "all histories, all limits, all continuations in which the silent peers stay silent", "why_tests_cant": "that a place is never given back is a claim about all continuations of all lengths; a test waits for a while and cannot tell slow from never", "anchors": ["msg-socket/src/rep/driver.rs: RepDriver::on_incoming, poll", "msg-socket/src/pub/driver.rs: PubDriver::on_incoming, poll", "msg-socket/src/req/driver.rs: ReqDriver::connect, poll", "msg-socket/src/sub/driver.rs: SubDriver::connect, poll_publishers", "msg-common/src/task.rs: JoinMap"]}
{"id": "C92", "title": "A QUIC listener hands on every connection once, in order, and gives its address up when it is dropped", "statement": "poll_accept of a bound QUIC transport hands on the connections that arrive, each once and in the order of arrival, whatever the interleaving of the accepting task with the polls, and never panics; if nothing fails, every connection that arrived is handed on after boundedly many turns. After an endpoint failure only what was already taken is handed on. When the transport is dropped, its address becomes free and clients are refused. (The last sentence is refuted: the accepting task keeps the endpoint until another client connects; that client's connection is established and then lost.)", "quantifier": "all histories of arrivals, turns of the accepting task, polls, failures and the drop", "why_tests_cant": "the accepting task and poll_accept are separate tasks joined by a bounded channel; order and loss must hold for every interleaving, and a leak of the endpoint shows only as the absence of an event", "anchors": ["msg-transport/src/quic/mod.rs: Quic::poll_accept"]}
{"id": "C93", "title": "A failing listener or a connection that cannot be established does no harm", "statement": "If a reply socket or a publisher accepts a connection that then cannot be established (or its listener reports an error), everything that happens from then on is what would have happened without it: the same requests are received, responses and messages are sent, clients are admitted and refused, and active_clients() is the same, for every earlier, simultaneous and later history.", "quantifier": "all histories before, between and after the failing accept; all options", "why_tests_cant": "comparing two whole executions that differ in one failure, for all histories; a test compares a few observations of one", "anchors": ["msg-socket/src/rep/driver.rs: RepDriver::poll, on_incoming", "msg-socket/src/pub/driver.rs: PubDriver::poll, on_incoming", "msg-transport/src/tcp/mod.rs: poll_accept", "msg-transport/src/ipc/mod.rs: poll_accept"]}
{"id": "C94", "title": "Every call of a subscriber socket has the documented result", "statement": "While the socket exists, subscribe/unsubscribe return ReservedTopic exactly for topics starting with \"MSG\", connect/disconnect return NoValidEndpoints exactly when the address cannot be resolved or parsed, and every other call succeeds iff fewer than 1024 commands of earlier calls are still to be processed; otherwise the try_ forms return ChannelFull and the async forms wait. A call that does not succeed changes nothing; 0.0.0.0 and [::] are dialled as 127.0.0.1 with the same port.", "quantifier": "all histories, all calls with all arguments", "why_tests_cant": "depends on the number of commands in flight at the time of the call, i.e. on the history and the schedule; ranges over all topics and addresses", "anchors": ["msg-socket/src/sub/socket.rs: connect, try_connect, disconnect, try_disconnect, subscribe, try_subscribe, unsubscribe, try_unsubscribe, send_command, try_send_command"]}
{"id": "C95", "title": "A subscriber redials an unreachable publisher on schedule and gives it up after fifteen dials", "statement": "After connect(), or after a connection has been given up, as long as no connection is made and the application does not disconnect or connect anew: the driver dials the publisher when the initial back-off is over, then after twice that time, and so on, fifteen times; when the sixteenth wait is over it gives the publisher up. It never dials earlier or more often; it leaves a dial out only while an earlier attempt is still under way (or one has panicked).", "quantifier": "all histories before and meanwhile, all times at which the driver looks, all initial back-offs up to the longest Duration divided by 2^16", "why_tests_cant": "depends on the times of polls relative to one another and on attempts that overlap; a test follows one schedule for a few seconds", "anchors": ["msg-socket/src/sub/driver.rs: poll_publishers, connect, reset_publisher", "msg-socket/src/connection/backoff.rs"]}
{"id": "C96", "title": "Collecting dials, resets and removals until the end of a pass makes no difference to a subscriber", "statement": "A subscriber looks at all its publishers before it dials, resets or removes any of them, and tries to send a new subscription to all of them before it resets those that are gone. A user may nevertheless think of each publisher as being dealt with on its own: the outcome is the same, each connection and each publisher see the same things in the same order, and messages and commands are handled in the same order.", "quantifier": "every history before, every order in which the publishers are visited, every number of turns in one poll", "why_tests_cant": "the difference would show only when several publishers answer, fail and run out of retries in the same turn, in an order chosen by a hash map", "anchors": ["msg-socket/src/sub/driver.rs: poll_publishers, subscribe, unsubscribe, reset_publisher"]}
{"id": "C97", "title": "A client that has connected gets to be known to the server", "statement": "A client whose connect() has succeeded is known to the server's socket, also if it writes nothing yet; a place of max_clients is only held by such clients. (Over QUIC this is refuted: the server learns of the connection with the client's first byte, and silent clients hold all places, with or without an authenticator. Proved: a connection is accepted only after its first byte or its end, and a client that has written is always accepted, unless the connection is lost.)", "quantifier": "all histories of a QUIC connection (any order of handshake, writes, deliveries, losses and polls); all histories of a reply socket or publisher in which accept futures do not complete", "why_tests_cant": "a test's client writes at once; a silent one would have to be waited for without end", "anchors": ["msg-transport/src/quic/mod.rs: Quic::connect, Quic::poll_accept", "msg-transport/src/quic/stream.rs: QuicStream", "msg-socket/src/rep/driver.rs: poll", "msg-socket/src/pub/driver.rs: poll"]}
