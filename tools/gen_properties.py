#!/usr/bin/env python3
"""Generates /verif/properties.jsonl (one JSON object per line)."""
import json
P = []
def p(title, statement, quantifier, why, *anchors):
    P.append(dict(id="C%02d" % (len(P)+1), title=title, statement=statement,
                  quantifier=quantifier, why_tests_cant=why, anchors=list(anchors)))

W="msg-wire/src/"; S="msg-socket/src/"; C="msg-common/src/"; T="msg-transport/src/"; M="msg-sim/src/"

p("Request/reply frames survive any fragmentation",
  "If a peer encodes any sequence of request/reply messages (ids, compression types, payloads below 4 GiB) back to back and the bytes arrive cut into arbitrary chunks, the receiving decoder yields exactly those messages, in order, with identical ids, compression types and payloads, and is then back in its initial state with an empty buffer.",
  "all message sequences and all ways to cut the encoded byte stream into reads (including one byte at a time and empty reads)",
  "The space of payloads times cut points is infinite; a unit test tries a few cuts.",
  W+"reqrep.rs: Codec::decode, Codec::encode, Message::new")
p("Publish/subscribe frames survive any fragmentation",
  "If a publisher encodes any sequence of pub/sub messages (topics up to 65535 bytes, payloads below 4 GiB, any timestamp/seq) and the bytes arrive cut into arbitrary chunks, the decoder yields exactly those messages in order.",
  "all message sequences and all chunkings", "Infinite inputs times infinite cut points.",
  W+"pubsub.rs: Codec::decode, Codec::encode, Message::new")
p("Authentication message survives any fragmentation",
  "A server in the authentication handshake that receives the client's encoded token obtains exactly that token, whatever way the bytes are split by the network, and never panics.",
  "all tokens and all chunkings of the encoded token",
  "A loop-back test delivers the small token in one segment, so it never exercises a split.",
  W+"auth.rs: Codec::decode (AuthReceive), Codec::encode")
p("Decoders never panic and never invent or lose bytes",
  "For every byte stream and chunking, the request/reply and pub/sub decoders never panic; the bytes covered by the yielded messages followed by the bytes still buffered are exactly the bytes received.",
  "all byte streams (also malformed), all chunkings", "Only finitely many malformed inputs can be tried.",
  W+"reqrep.rs: Codec::decode", W+"pubsub.rs: Codec::decode", W+"auth.rs: Codec::decode")
p("Foreign protocol bytes are rejected before being consumed",
  "A frame whose first byte is not the protocol's wire id yields an invalid-wire-id error carrying that byte, consumes nothing, and no message is ever produced from that point of the stream on: the error repeats for any further input.",
  "all byte streams starting with a foreign byte, all later input", "Unbounded continuation.",
  W+"reqrep.rs: Codec::decode", W+"pubsub.rs: Codec::decode", W+"auth.rs: Codec::decode")
p("Decoding does not depend on read boundaries",
  "For an arbitrary (even malformed) byte stream, the sequence of messages and errors produced by a request/reply or pub/sub connection does not depend on how the transport split the stream into reads.",
  "all byte streams and all pairs of chunkings of it", "Pairs of chunkings of arbitrary streams cannot be enumerated.",
  W+"reqrep.rs: Codec::decode", W+"pubsub.rs: Codec::decode", "tokio-util Framed (external, modelled)")
p("Every payload size accepted by the API is framed correctly",
  "Any payload handed to request(), respond() or publish() is delivered to the peer's decoder with the same length and content.",
  "all payload lengths, including 4 GiB and above", "A 4 GiB test vector is impractical and boundaries are many.",
  W+"reqrep.rs: Message::new (as u32)", W+"pubsub.rs: Message::new (as u32)")
p("Compression is transparent",
  "For each compression type the receiver selects the matching decompressor from the wire header; if that algorithm's decompressor inverts its compressor the receiver obtains the original payload; type 0 is the identity; every unassigned type byte is rejected with an error, never passed through.",
  "all payloads, all 256 type bytes, all compressor/decompressor pairs that are inverse", "Round trips are only sampled by tests.",
  W+"compression/mod.rs: CompressionType, try_decompress_payload", S+"req/mod.rs: ReqMessage::compress, into_wire", S+"pub/mod.rs: PubMessage::compress, into_wire")
p("Compression threshold is honoured",
  "A payload smaller than the configured min_compress_size is sent uncompressed (type 0, bytes unchanged), and one of at least that size is compressed when a compressor is set — on request(), publish(), try_publish() and respond().",
  "all payload lengths, thresholds and compressors, on all four send paths", "Boundary conditions on four paths for all sizes.",
  S+"req/driver.rs: on_command", S+"pub/socket.rs: publish, try_publish", S+"rep/driver.rs: PeerState::poll_next", S+"rep/mod.rs: RepOptions::min_compress_size")
p("A response answers the request it belongs to",
  "Whatever the order in which responses arrive, a request() call that returns Ok(bytes) returns the (decompressed) payload of a response frame bearing the id that was put on the wire for that very call.",
  "all interleavings of requests, responses, timeouts, reconnections with fewer than 2^32 requests issued between a request and its completion", "Schedules are unbounded.",
  S+"req/driver.rs: on_message, on_command, check_timeouts")
p("A request completes at most once and nothing else completes it",
  "Each request() call receives at most one outcome; a duplicate, late or unknown-id response changes nothing observable (no outcome, no statistics).",
  "all event histories of the request socket", "Unbounded histories.",
  S+"req/driver.rs: on_message, check_timeouts")
p("Timeout check is exact",
  "When the periodic check runs at time t, exactly the outstanding requests issued more than `timeout` before t complete with Timeout; all other outstanding requests are untouched.",
  "all sets of outstanding requests, all times", "Arbitrary sets and clock values.",
  S+"req/driver.rs: check_timeouts")
p("Requests time out even while disconnected",
  "A request() issued on a connected-or-connecting socket completes with an outcome no later than the first timeout check after its deadline, also while the socket is reconnecting.",
  "all connection histories", "Needs the adversarial schedule 'peer misbehaves, then stays down'.",
  S+"req/driver.rs: ReqDriver::poll")
p("Requests go out in order, exactly once, none lost while queued",
  "Frames handed to the connection are, in order, the accepted requests with ids 0,1,2,... (mod 2^32); a request leaves the queue only by being handed to a connection, also across reconnections.",
  "all histories of requests, back-pressure and reconnects", "Unbounded histories.",
  S+"req/driver.rs: on_command, poll (egress_queue)")
p("The request socket reconnects when the connection is lost",
  "After an established connection is lost (protocol error, or the server closing it), the request socket goes back to trying to connect and later requests can succeed.",
  "all ways and times a connection can end", "Crash points are unbounded.",
  S+"req/driver.rs: poll (Ready(None), Ready(Some(Err)))")
p("When the request driver stops, no caller hangs",
  "Once the background task of a request socket ends (retries exhausted, peer closed, socket dropped), every outstanding and every later request() resolves with SocketClosed (or its already produced result).",
  "all histories leading to termination", "Unbounded histories.",
  S+"req/driver.rs: poll", S+"req/socket.rs: request")
p("Reconnect back-off doubles and is bounded",
  "The i-th wait before a reconnection attempt lasts initial*2^i; after the n-th wait with n = max_retries the stream ends; so exactly max_retries-1 retries happen, after which it terminates, total wait initial*(2^max_retries-1).",
  "all initial durations and retry limits (no Duration overflow)", "Unbounded parameters.",
  S+"connection/backoff.rs: ExponentialBackoff::poll_next")
p("Configured retry policy is respected",
  "ReqOptions::retry_attempts (None = retry indefinitely) and backoff_duration determine how often and with what delay the request socket retries.",
  "all option values and all numbers of consecutive failures", "Infinite retry cannot be tested.",
  S+"req/mod.rs: ReqOptions", S+"req/socket.rs: try_connect", S+"req/driver.rs: reset_connection")
p("Round-trip/latency average stays between its samples and below the true mean",
  "The reported cumulative average is never below the smallest nor above the largest sample, never above the true mean of all samples and at most (n-1)/2 below it.",
  "all finite sample sequences (without machine overflow)", "All sequences.",
  S+"req/stats.rs: update_rtt", S+"sub/stats.rs: update_latency")
p("The reported average follows the samples",
  "The reported cumulative average equals the true mean rounded down (documented CA formula), in particular it does not drift away from it by more than one unit.",
  "all sample sequences", "Long sequences.",
  S+"req/stats.rs: update_rtt", S+"sub/stats.rs: update_latency")
p("Byte counters count what is sent",
  "bytes_tx of a request, reply or publisher socket equals the number of bytes of all frames handed to connections.",
  "all histories of sends", "All histories.",
  S+"req/driver.rs: increment_tx", S+"rep/driver.rs", S+"pub/session.rs", W+"reqrep.rs: size", W+"pubsub.rs: size")
p("A reply reaches the requester and carries its id",
  "For each Request yielded by the reply socket, calling respond(x) causes exactly one frame, on the connection the request came from, with the id of that request, whose (decompressed) payload is x; requests that are dropped cause no frame; no other frame is ever sent.",
  "all interleavings of requests and responses over all peers", "Schedules and peers are unbounded.",
  S+"rep/driver.rs: PeerState::poll_next, PendingRequest::poll", S+"rep/mod.rs: Request::respond")
p("A completed response is never left unsent by the driver",
  "When the reply driver goes idle (its poll returns Pending) no response that was already given via respond() is waiting to be turned into a frame.",
  "all sets of answered and dropped requests, in any order", "Needs a particular completion order.",
  S+"rep/driver.rs: PeerState::poll_next (pending_requests)")
p("max_clients is never exceeded",
  "With max_clients = m the number of simultaneously established or establishing client connections of a reply or publisher socket never exceeds m.",
  "all sequences of connects, handshakes, failures, disconnects", "Unbounded histories.",
  S+"rep/driver.rs: RepDriver::poll", S+"pub/driver.rs: PubDriver::poll")
p("active_clients is accurate",
  "active_clients() equals the number of connections that are being established or are live; in particular it never underflows and a slot is returned for each connection that ends for whatever reason.",
  "all sequences of connects, handshakes (also malformed), failures, disconnects", "Unbounded, adversarial histories.",
  S+"rep/driver.rs", S+"pub/driver.rs", S+"pub/session.rs: Drop", S+"rep/stats.rs", S+"pub/stats.rs")
p("No traffic from unauthenticated peers",
  "If an authenticator is configured, a request is yielded by the reply socket (and a subscription is honoured by the publisher) only for a connection whose client sent an auth message with a token the authenticator accepted; a rejected client receives a reject frame and its connection is dropped.",
  "all byte streams a client may send, all authenticators, all interleavings", "Adversarial inputs.",
  S+"rep/driver.rs: on_incoming", S+"pub/driver.rs: on_incoming", W+"auth.rs")
p("Clients do not disturb each other",
  "Connecting a new client to a reply socket leaves all other connected clients connected and served, on every transport.",
  "all sets of connected clients and all transports", "Any number of clients, in any order.",
  S+"rep/driver.rs: peer_states.insert", T+"ipc/mod.rs: PeerAddress for IpcStream, poll_accept")
p("Literal subscriptions behave like a set",
  "After any sequence of subscribe/unsubscribe with wildcard-free topics, a published topic is forwarded iff it is currently subscribed.",
  "all operation sequences and all topics", "Unbounded sequences.",
  S+"pub/trie.rs: PrefixTrie", S+"pub/session.rs: on_incoming, on_outgoing")
p("No message is forwarded without a matching subscription",
  "Whatever subscriptions (with * and > wildcards) are made and cancelled, a topic is forwarded only if it matches a currently held subscription under the documented wildcard rules.",
  "all operation sequences and topics", "Unbounded sequences.",
  S+"pub/trie.rs: insert, remove, contains")
p("Every matching message is forwarded (single-token wildcard)",
  "If a topic matches some current subscription made of literals and *, it is forwarded, irrespective of the other subscriptions held.",
  "all sets of subscriptions and topics", "Needs interacting subscriptions.",
  S+"pub/trie.rs: contains")
p("The > wildcard matches one or more trailing tokens",
  "A subscription foo.> forwards foo.bar and foo.bar.baz.",
  "all prefixes and all non-empty suffixes", "All topics.",
  S+"pub/trie.rs: insert, contains")
p("Unsubscribing undoes subscribing",
  "After subscribing a topic and later unsubscribing the same topic string, forwarding is as if it had never been subscribed, other subscriptions are unaffected, and when all are unsubscribed the filter holds no nodes.",
  "all topics (also with wildcards anywhere) and all other subscriptions", "All histories.",
  S+"pub/trie.rs: remove, inner_remove")
p("A subscriber sees published messages in order, without duplicates, with gap-free sequence numbers",
  "The messages sent on one subscriber connection are a subsequence of the published messages in publish order, each at most once, each matching the filter at the time it was taken, with consecutive sequence numbers from 0.",
  "all interleavings of publishes, subscriptions, lag and back-pressure", "Schedules.",
  S+"pub/session.rs: SubscriberSession::poll, on_outgoing")
p("Only lagging by more than the buffer loses messages, and then the oldest",
  "A subscriber session misses a published message only if it was at least session_buffer_size messages behind at some time, and then exactly the oldest messages are lost.",
  "all publish/consume interleavings", "Schedules.",
  S+"pub/session.rs: from_socket_bcast", S+"pub/socket.rs: try_bind (broadcast::channel)", "tokio broadcast (external, modelled)")
p("A malformed control message ends the session",
  "A publisher closes a session when the subscriber sends anything that is not a subscribe/unsubscribe control message (as documented by msg_to_control).",
  "all incoming messages", "All messages.",
  S+"pub/session.rs: msg_to_control, on_incoming, ControlMsg::Close")
p("Control messages mean what the subscriber asked",
  "The control frame produced for subscribe(t) / unsubscribe(t) is understood by the publisher as subscribe / unsubscribe of exactly t.",
  "all topics that are valid UTF-8 strings of at most 65525 bytes", "All strings.",
  W+"pubsub.rs: new_sub, new_unsub", S+"pub/session.rs: msg_to_control")
p("Subscribe/unsubscribe commands reach the publisher in the order issued",
  "Control frames are written to each publisher connection in the order in which subscribe/unsubscribe were called.",
  "all command sequences and all back-pressure patterns", "Needs back-pressure at a precise moment.",
  S+"sub/session.rs: PublisherSession::poll (egress push_back)")
p("Later-connected publishers get all subscriptions",
  "A publisher connection established after subscribe(t) gets a subscribe command for t, for every currently subscribed topic.",
  "all sets of topics and all connection times", "Needs many topics.",
  S+"sub/driver.rs: on_connection, subscribe", S+"sub/socket.rs: subscribe (doc)")
p("Subscription bookkeeping is a set and commands are minimal",
  "The set of subscribed topics after any command history equals the set computed by inserting/removing in order; a repeated subscribe or an unsubscribe of an unknown topic sends nothing to any publisher; a new one sends exactly one command to each active publisher.",
  "all command histories and publisher states", "Histories.",
  S+"sub/driver.rs: subscribe, unsubscribe, on_command")
p("After disconnect(endpoint) no message from it is delivered",
  "Once the driver has processed disconnect(endpoint), no further message from that endpoint is delivered to the application until connect(endpoint) is called again, and its statistics are gone.",
  "all histories incl. connects in progress", "Races.",
  S+"sub/driver.rs: on_command (Disconnect), on_connection")
p("The subscriber notices a lost publisher and reconnects",
  "When a publisher closes the connection, the subscriber's session ends and the driver starts reconnecting with back-off.",
  "all times at which the publisher closes", "Crash points.",
  S+"sub/stream.rs: PublisherStream::poll_next", S+"sub/session.rs", S+"sub/driver.rs: poll_publishers")
p("One undecodable message does not hold up the following ones",
  "When the subscriber driver goes idle (poll returns Pending), no message received from any publisher session is still waiting in a session channel.",
  "all message sequences", "Needs a corrupt message followed by silence.",
  S+"sub/driver.rs: poll_publishers (continue without progress)")
p("Messages from one publisher are delivered in order, unmodified, attributed to it",
  "The messages yielded by the subscriber socket from one publisher are, in order and without duplication, messages sent by that publisher, with its address as source, same topic and original payload; a message is dropped only if undecodable, when a buffer is full, or when the connection or the socket has been closed (by the application, or because the session crashed).",
  "all streams and schedules", "Schedules.",
  S+"sub/driver.rs: poll_publishers", S+"sub/session.rs: on_incoming", S+"sub/stream.rs")
p("Reserved topics are refused",
  "subscribe, try_subscribe, unsubscribe, try_unsubscribe return ReservedTopic and send no command iff the topic starts with MSG.",
  "all topics", "All strings.", S+"sub/socket.rs")
p("Oversized topics are refused, not fatal",
  "No topic accepted by subscribe() or publish() can crash a session task.",
  "all topics of all lengths", "Lengths beyond 65535.",
  W+"pubsub.rs: Message::new (expect)", S+"pub/session.rs: on_outgoing", S+"sub/session.rs: subscribe")
p("At most one connection attempt per publisher, and a finished one frees the slot",
  "There is never more than one connection task per address; after a task has finished — for whatever reason — a new one can be started for that address.",
  "all sequences of spawn/complete/panic", "Histories.",
  C+"task.rs: JoinMap::spawn, poll_join_next", S+"sub/driver.rs: connect")
p("disconnect() undoes connect() for the same endpoint string",
  "disconnect(e) after connect(e) removes the publisher that connect(e) added, for every endpoint e.",
  "all IP endpoints, also unspecified addresses", "All addresses.",
  S+"sub/socket.rs: connect, try_connect, disconnect, try_disconnect")
p("Dropping the subscriber socket releases its resources",
  "After the SubSocket is dropped its background task terminates and its publisher connections are closed.",
  "all states at the time of the drop", "All states.",
  S+"sub/socket.rs: Drop", S+"sub/driver.rs: poll, on_command(Shutdown)")
p("A client uses a connection only after an explicit acknowledgement",
  "With an auth token configured, a request or subscriber socket activates a connection only if the server's first frame is an ack; on reject, foreign bytes, or EOF it does not.",
  "all server byte streams and chunkings", "Adversarial server.",
  S+"req/driver.rs: try_connect", S+"sub/driver.rs: connect", W+"auth.rs")
p("bind() uses the first address that works",
  "On a socket whose transport is not bound yet, try_bind tries the addresses in order and stops at the first success, local_addr() is then the address of that listener, and NoValidEndpoints is returned iff none can be bound.",
  "all address lists and all bind outcomes", "All lists.",
  S+"rep/socket.rs: try_bind", S+"pub/socket.rs: try_bind")
p("accept() does not lose connections",
  "TransportExt::accept resolves with an inbound connection even if its handshake needs several polls.",
  "all handshake durations", "Timing.",
  T+"lib.rs: Acceptor::poll", T+"quic/mod.rs: poll_accept")
p("Topic strings survive the wire",
  "A topic published as a Rust string is yielded to the subscriber as the identical string; invalid UTF-8 on the wire never causes a panic and always yields a valid string.",
  "all strings / all byte sequences", "All byte sequences.",
  S+"sub/stream.rs: from_utf8_lossy", S+"pub/session.rs: msg_to_control")
p("End-to-end request/reply",
  "For a request socket connected to a reply socket over a reliable ordered byte stream (any fragmentation) where the application answers request payload q with f(q), each request(q) that returns Ok returns f(q), and with codecs/compressors that are inverse.",
  "all request sequences (< 2^32), all response orders, all fragmentations", "Schedules times inputs.",
  S+"req/driver.rs", S+"rep/driver.rs", W+"reqrep.rs")
p("End-to-end publish/subscribe",
  "For a publisher socket and a subscriber socket connected over reliable ordered byte streams (any fragmentation, delays, losses of connections, reconnections, other peers): the frames received by the subscriber on a connection are a prefix of those the publisher wrote on it, and likewise for the control frames in the other direction; the messages the subscriber's application obtains from one connection are a subsequence of the publish()/try_publish() calls (same topic and payload, in order, each at most once) for any compressor with its inverse; each of them matches a topic the application subscribed to that was held on this connection; and once everything has arrived, nothing was refused for lack of room and the connection is up, the application has obtained exactly the messages that were due on it.",
  "all sequences of publish/subscribe/unsubscribe/connect/disconnect calls, all interleavings of the two sockets' tasks, all fragmentations and connection failures",
  "Schedules times inputs.",
  S+"pub/session.rs", S+"pub/driver.rs", S+"sub/session.rs", S+"sub/driver.rs", W+"pubsub.rs")
p("Handshake loses no application bytes",
  "No application frame is lost in the switch from the authentication codec to the message codec (the handshake read buffer is discarded).",
  "all byte streams/chunkings in which the client waits for the ack", "Timing of reads.",
  S+"rep/driver.rs: conn.into_inner()", S+"sub/driver.rs: conn.into_inner()", S+"req/driver.rs: try_connect")
p("Simulation ids are unique and restart keeps the simulation",
  "Simulator::start returns pairwise distinct ids, usable as pipe numbers however the Simulator was made (new or default); restarting an endpoint leaves exactly the new simulation active; stop removes it.",
  "all start/stop histories", "Histories.",
  M+"lib.rs: Simulator", M+"dummynet.rs: PacketFilter::enable, destroy")
p("Background polling terminates",
  "One poll of each background task returns (Pending or Ready) after finitely many loop iterations if no new external events occur.",
  "all driver states", "Termination is universal over states.",
  S+"req/driver.rs: poll", S+"rep/driver.rs: poll", S+"pub/session.rs: poll", S+"sub/session.rs: poll", S+"sub/driver.rs: poll")
p("The reply socket yields each request faithfully",
  "The requests yielded by the reply socket are the request messages received on its connections, each at most once, in the order in which they were taken from the connections, with the source address of their connection and the decompressed payload; a received request is withheld only if it cannot be decompressed, the socket was dropped, or 1024 requests are already waiting.",
  "all request sequences, clients and schedules", "Concurrent histories.",
  S+"rep/driver.rs: poll, PeerState::poll_next", S+"rep/socket.rs: poll_next")
p("A message cut off by the end of the connection is reported",
  "If the peer closes the connection in the middle of a message, the messages received completely before it are delivered, the cut one is not, and the end of the stream is reported as an error, not as an orderly close.",
  "all frame sequences, all cut positions, all fragmentations", "All cut points of all streams.",
  W+"reqrep.rs: Codec::decode", W+"pubsub.rs: Codec::decode", S+"req/driver.rs: poll")
p("No request is left behind while the request socket is idle",
  "Whenever the background task of a request socket goes to sleep with an established connection that accepts data, every request() call made so far has been handed to the connection.",
  "all histories and all polls", "Schedules.",
  S+"req/driver.rs: poll")
p("Receive statistics describe exactly the answered requests",
  "bytes_rx is the number of bytes received in responses that were delivered to a caller and one round-trip time (from acceptance to arrival, in microseconds) is recorded per answered request; timeouts, undecodable and stray responses are not counted.",
  "all histories", "Histories.",
  S+"req/driver.rs: on_message", S+"req/stats.rs")
p("At most one connection attempt at a time",
  "A request socket never starts a connection attempt while a previous one is still in flight.",
  "all histories", "Schedules.",
  S+"req/driver.rs: poll, try_connect")
p("An idle publisher session is up to date",
  "When a subscriber session of a publisher goes to sleep with a connection that accepts data, every message published since the session started was considered (unless lost by lagging), every matching one was written, and the connection was flushed if a flush was allowed.",
  "all histories and all polls", "Schedules.",
  S+"pub/session.rs: SubscriberSession::poll")
p("A sleeping background task has nothing left to do",
  "Whenever a background task of a socket goes to sleep (its poll returns Pending), everything it could make progress on has been polled in that same pass and was not ready: no command, message, connection or handshake that is already available is left unprocessed.",
  "all task states and all answers of the environment",
  "A lost wake-up shows only under particular interleavings; quantifies over all of them.",
  "msg-socket/src/req/driver.rs: poll", "msg-socket/src/rep/driver.rs: poll", "msg-socket/src/pub/driver.rs: poll", "msg-socket/src/pub/session.rs: poll", "msg-socket/src/sub/driver.rs: poll", "msg-socket/src/sub/session.rs: poll")

p("Subscriber statistics are truthful",
  "For every publisher a subscriber is connected to, bytes_rx equals the number of payload bytes received from it on the current connection, and the latency is the moving average of the measured latencies of those messages; a publisher without an established connection has no entry.",
  "all histories",
  "History invariant over concurrent sessions.",
  "msg-socket/src/sub/stats.rs", "msg-socket/src/sub/session.rs: on_incoming", "msg-socket/src/sub/driver.rs")

p("Failed or repeated bind() and connect() are reported, not fatal",
  "bind() or connect() that fails returns an error and can be tried again; a second bind() or connect() and the use of a socket that is not bound or connected return an error rather than panic.",
  "all histories of calls on a request, reply or publisher socket and all outcomes of binding",
  "All call histories.",
  S+"rep/socket.rs: try_bind, poll_next", S+"pub/socket.rs: try_bind, publish", S+"req/socket.rs: try_connect, request")
p("Every option value gives a usable socket",
  "No value passed to the option builders (timeouts, intervals, buffer sizes) makes constructing, binding or connecting the socket, or accepting its first client, panic.",
  "all option values", "All values.",
  S+"req/socket.rs: try_connect", S+"pub/socket.rs: try_bind", S+"pub/driver.rs: poll, on_incoming", S+"sub/socket.rs: with_options")
p("accept() serves the address the transport is bound to",
  "After a successful bind() of a transport, accept() yields the connections made to the address that local_addr() reports.",
  "all histories of bind and accept", "Histories.",
  "msg-transport/src/tcp/mod.rs", "msg-transport/src/ipc/mod.rs", "msg-transport/src/quic/mod.rs: bind, poll_accept")
p("Binding does not take a path away from its owner",
  "Binding an IPC socket never takes over the path of another live socket and never deletes somebody else's file.",
  "all file system contents", "All environments.",
  "msg-transport/src/ipc/mod.rs: bind")
p("A bi-directional channel delivers in order, exactly once, with bounded buffers",
  "For the channel pair of msg-common: each end receives exactly the messages successfully sent by the other, in order; a send is refused as full iff the configured number of messages is waiting, and as closed iff the other end is gone; the end of the stream is reported iff the other end is gone and everything was received.",
  "all interleavings of uses and drops of the two ends", "All interleavings.",
  "msg-common/src/channel.rs")

p("Authentication holds end to end",
"If the server (reply or publisher socket) has an authenticator and the client has no token, or one the authenticator does not accept, then none of the client's requests or subscriptions is ever received, nothing is ever sent to it, no request() of it returns Ok and its subscriber yields nothing from this publisher. Conversely a client with a token uses a connection only if the server has an authenticator and it accepted exactly this token.",
"all joint histories of a client and a server socket (all interleavings, fragmentations, losses of connections and reconnects, other clients and servers), all tokens (shorter than 2^32 bytes) and authenticators",
"a test shows one refused client; that no interleaving, fragment boundary or reconnect lets an unaccepted client in needs a proof over all joint histories",
S+"req/driver.rs: connect task", S+"rep/driver.rs: ServerAuthenticator / auth tasks", S+"pub/driver.rs", S+"sub/driver.rs", W+"auth.rs")

p("Partial writes lose, repeat and reorder nothing",
"What the transport has taken on a connection, followed by what is still buffered, is always exactly the encodings of the messages given to that connection, in order; a flush or close that reports success has put all of them on the wire. So the reader sees a prefix of the messages, and after a successful flush all of them.",
"all sequences of poll_ready / start_send / poll_flush / poll_close by the owner (and all histories of the four sockets), all answers of the transport to writes (any number of bytes, not ready, errors, zero bytes), all cuts of the byte stream at the reader",
"how many bytes a write takes is chosen by the kernel; tests on a loop-back interface practically always see complete writes",
S+"req/driver.rs: poll", S+"rep/driver.rs: poll_next", S+"pub/session.rs: poll", S+"sub/stream.rs: poll_send, poll_flush", "tokio-util Framed (write half)")
p("The write buffer of a connection is bounded by the back-pressure boundary",
"A connection buffers at most the back-pressure boundary plus one frame, however slow the peer is. (Holds as long as the transport reports no write error; with a connection whose writes fail, the request, reply and publisher sockets keep appending frames without bound. The subscriber's buffer is bounded whatever happens.)",
"all histories of the four sockets, all boundaries, all answers of the transport to writes",
"needs a peer that is slow or a connection that fails at every point of every history",
S+"req/driver.rs: poll (poll_ready)", S+"rep/driver.rs: poll_next (poll_ready)", S+"pub/session.rs: poll (poll_ready)", S+"sub/stream.rs: poll_send")
p("A connection that cannot be written to any more is given up",
"If every write on a connection fails, the socket gives the connection up: the request socket reconnects, the reply and publisher sockets end the session, the subscriber ends its session. (Refuted for all four, as long as reading reports nothing; in the subscriber one failed flush suppresses a subscription for good, even if the transport recovers.)",
"all histories in which writes fail while nothing can be read, all numbers of iterations",
"needs a transport whose write side fails while its read side stays silent, for an unbounded time",
S+"req/driver.rs: poll", S+"rep/driver.rs: poll_next", S+"pub/session.rs: poll", S+"sub/stream.rs: poll_flush")
p("What was sent is flushed before the task sleeps",
"Whenever the task of a connection goes to sleep, everything handed to the connection has been written to the transport, unless the task is waiting for the configured flush interval or the transport did not complete the flush tried in that iteration. (For the subscriber: provided no earlier flush failed.)",
"all histories of the four sockets and all iterations that end in Pending, all answers of the transport",
"a forgotten flush shows only if nothing else happens on the connection afterwards, at any point of any history",
S+"req/driver.rs: poll, should_flush", S+"rep/driver.rs: poll_next", S+"pub/session.rs: poll, should_flush", S+"sub/stream.rs: poll_next")
p("Nothing is stuck between a request and a reply socket",
"When nothing is left to read or write between a request socket and a reply socket (everything written on the connection was read, both sides have empty queues), every request() call has its result, or its request was delivered to the server and the server's application has not answered it (it holds it, discarded it, or it was not deliverable, or the answer could not be compressed), or the request was lost with another connection. With a single connection that did not fail and an application that answered everything, every call has a result.",
"all sequences of calls of both applications, all interleavings of the two sides, all fragmentations of the byte streams, all reconnects, with and without authentication and compression",
"a call that is forgotten somewhere shows only as a result that never comes; a test can only wait for a while, on a few schedules",
S+"req/driver.rs: poll, on_message, on_send", S+"rep/driver.rs: poll_next, poll", S+"req/socket.rs: request", S+"rep/socket.rs: recv")
p("A request socket and a reply socket can always finish what is under way",
"Whatever happened before (reconnects, lost frames, timeouts, other clients), as long as the two sockets have a working connection, everything under way can still be finished: if from then on the transport takes frames and delivers data and the server application takes requests and answers them, then within a bounded number of steps (at most 8 for each call) neither side has anything left to do, nothing fails meanwhile, and every request() call that had no result returns Ok with the server's answer to its own payload, unless its frame had been lost before.",
"all histories that lead to a connected pair, all server functions, all fragmentations met on the way there, with and without authentication and compression",
"a deadlock (a decoder stuck in the middle of a frame, a response that is queued and never written, an id that blocks) shows only in the history that leads to it; no test visits them all",
S+"req/driver.rs: poll, on_message, on_send", S+"rep/driver.rs: poll_next, poll", S+"req/socket.rs: request", S+"rep/socket.rs: recv, respond")
p("A request socket that lost its connection can get a new one, and its unwritten requests survive",
"Whatever happened before, a request socket without a connection that has a retry left (or an attempt under way) can get connected again if the server is there, has room and accepts its token: within 8 steps, at the latest when the back-off timer expires (or 20 ms from now). On the way no call, request or response is lost and the server's other connections are untouched. Afterwards, if everybody does his job, every request() call without a result returns Ok with the server's answer in a bounded number of steps, unless its request had already been given to a connection before.",
"all histories that leave the socket without a connection (initial connect, failed attempts, failed handshakes, read and write errors), all fragmentations, all other clients, with and without authentication and compression",
"the state left behind by a broken connection or handshake depends on the whole history; a test breaks the connection at a few points only",
S+"req/driver.rs: poll, try_connect, reset_connection", S+"rep/driver.rs: poll, on_incoming", S+"connection/backoff.rs: poll_next")

p("A subscriber and a publisher can always finish what is under way",
"Whatever happened before, as long as a subscriber and a publisher are in touch over a working connection, everything under way can still be finished: if from then on the transport takes frames and delivers data, the tasks run and the application takes messages, then within a bounded number of steps (at most 5 for each message, 3 for each subscription command) nothing is left to do; meanwhile nothing is refused, no connection ends and nothing else changes. Then the application has obtained, each once and in the order of publication, exactly the messages that were due to the connection before and, of those the publisher's session had not looked at, the ones that pass its subscriptions, except those that had already been pushed out of the session buffer.",
"all histories that lead to a connected pair (reconnects, lag, refused messages, other publishers and subscribers), all fragmentations met on the way there, all buffer sizes, with and without authentication and compression",
"a deadlock (a decoder stuck in the middle of a frame, a queue that is full and nobody empties, a message in hand that is never written) shows only in the history that leads to it; no test visits them all",
S+"sub/driver.rs: poll, on_command", S+"sub/session.rs: poll", S+"sub/stream.rs: poll_next", S+"pub/session.rs: poll", S+"sub/socket.rs: poll_next")
p("Subscribing and unsubscribing take effect",
"When subscriber and publisher are at rest and the application subscribes to a new topic, then, if everybody does his job, they come to rest again with the publisher's filter for this connection extended by exactly this topic, and of the messages published then (not more than the session buffer holds) the application obtains exactly those the filter lets through, in order: every message of the topic (unless `>` is used), and only messages matching a held subscription. After unsubscribe, likewise, only messages that match a subscription that is still held are obtained.",
"all histories that lead to a connected pair at rest, all topics that fit the wire format and are not reserved, all batches of messages up to the session buffer's capacity, with and without authentication and compression",
"that a subscription works after one history says nothing about the others: the command goes through two queues, two encoders and a trie whose state depends on everything before",
S+"sub/socket.rs: subscribe, unsubscribe", S+"sub/driver.rs: on_command, subscribe, unsubscribe", S+"sub/session.rs: poll", S+"pub/session.rs: on_incoming, poll", S+"pub/trie.rs")
p("Under every fair schedule, everything under way between a request and a reply socket is answered",
"If a request and a reply socket have a working connection, then under every schedule in which, from then on, the client's driver, the server's connection and the server application again and again get a turn (in any order, at any speed, with the streams cut into pieces in any way, readiness coming and going) and do nothing but their job, and the application answers every request it takes, some moment comes from which on nothing is left to do, for ever; nothing fails until then, and every request() call that had no result returns Ok with the server's answer to its own payload, unless its frame had been lost before. The requests on their way must fit into the server application's queue of 1024. Such schedules exist from every such state.",
"all infinite fair schedules (orders, fragmentations, timings, choices among several responses), from every connected state, all server functions, with and without authentication and compression",
"a starvation or a livelock needs an infinite run to show, and there are uncountably many schedules; a test sees finite prefixes of a few of them",
S+"req/driver.rs: poll, on_message, on_send", S+"rep/driver.rs: poll_next, poll", S+"req/socket.rs: request", S+"rep/socket.rs: recv, respond")
p("Under every fair schedule, everything published arrives and subscriptions take effect",
"If a subscriber and a publisher have a working connection, then under every schedule in which, from then on, the subscriber's driver, its session, the publisher's session and the application that takes messages again and again get a turn (in any order, at any speed, with the streams cut into pieces in any way and the transport taking any number of frames at a time) and do nothing but their part, some moment comes from which on nothing is left to do, for ever; until then nothing is refused or lost, no connection ends and nothing else changes. Then the application has obtained, in order of publication and each once, exactly the messages due to the connection and those not yet looked at that its filter lets through (except those already pushed out of the session buffer). So what is published at rest arrives, and a new subscription takes effect, under every fair schedule. The messages on their way must fit into the subscriber's buffers. Such schedules exist from every such state.",
"all infinite fair schedules (orders, fragmentations, timings, numbers of frames accepted), from every connected state, all batches of messages and topics, with and without authentication and compression",
"a starvation or a livelock needs an infinite run to show, and there are uncountably many schedules; a test sees finite prefixes of a few of them",
S+"sub/driver.rs: poll", S+"sub/session.rs: poll", S+"pub/session.rs: poll", S+"sub/socket.rs: subscribe, poll_next", S+"pub/socket.rs: publish")

p("Dropping a request, reply or publisher socket shuts its service down",
"When the application drops its socket, the background tasks finish what was begun and end: a request socket's task sends the calls still queued, closes the connection and ends; a publisher's sessions deliver what was published before and end; a reply socket stops serving, except that requests the application still holds can be answered. (Proved while the connections are up and read by the peer. Refuted otherwise: a disconnected request task goes on dialling, a session whose subscriber does not read never ends, and the publisher and reply drivers never notice: they accept and serve new connections, and reply clients' new requests are read and silently thrown away.)",
"all histories up to the drop, all continuations",
"the moment of the drop and what is in flight then can be anything, and `never ends' cannot be seen in any finite test",
S+"req/driver.rs: poll", S+"rep/driver.rs: poll", S+"pub/driver.rs: poll", S+"pub/session.rs: poll", S+"rep/mod.rs: Request::respond")

p("A slow, flooding or misbehaving peer does not disturb the others",
"What the subscribers of a publisher receive, and when, does not depend on what the others do (read nothing, flood, disconnect, crash), apart from the places max_clients leaves; likewise what a subscriber gets from a publisher, sends to it and hands to the application does not depend on the other publishers, and a client of a reply socket is served the same whatever the other clients do. (Proved for the publisher; for subscriber and reply socket unless the queue to the application overflows or, at a reply socket, another client takes over the address. Refuted for the shared queues: the queue to the application of reply and subscriber sockets is shared and drops what does not fit: one client of a reply socket can make the requests of all others vanish unanswered, and one publisher can make a subscriber lose the messages of another.)",
"all pairs of histories that differ only in the behaviour of one peer",
"it compares pairs of executions; a test sees single ones",
S+"pub/session.rs: poll", S+"pub/driver.rs: poll", S+"rep/driver.rs: poll (try_send)", S+"sub/driver.rs: poll_publishers, on_message")
p("Memory held for a slow peer is bounded",
"However slow a peer is, the socket keeps only a bounded number of messages for it. (Proved for publisher sessions: fewer than twice session_buffer_size; for the subscriber's inbound and command queues and for the reply socket's queue of requests. Refuted for the outgoing queues of request driver, reply peer and subscriber session: they go on accepting work while the connection accepts nothing, and keep the frames of requests that have timed out.)",
"all histories; for the refutations: every size",
"unboundedness is about all sizes, and a bound about all schedules of fast producers and slow consumers",
S+"pub/session.rs: poll", S+"req/driver.rs: poll, on_send", S+"rep/driver.rs: poll_next", S+"sub/session.rs: poll", S+"sub/driver.rs: poll")

p("A subscriber that has no connection finds its way back, with its subscriptions",
"Whatever happened before: a subscriber that was told to connect to a publisher, has no connection to it (attempts failed, or the session ended) and has a retry left or an attempt under way, can get a new connection if the publisher lets it in, in at most 8 steps, the last at the latest when the back-off's timer says so. All else is as before: topics, queued calls and messages, other publishers, connections, sessions. The new session is told the topics subscribed (the first 64); when both sides have done their work, the publisher's filter for the new connection consists of exactly these, and of the messages published then the application obtains exactly those it lets through, in order: with at most 64 topics, each message of a subscribed topic, and only messages matching one. (A lost connection that the session does not notice is C41.)",
"all event sequences before, all states of handshake and back-off, all topics, all batches of messages",
"reconnection is tried by tests from one or two states; here it is every reachable state of both drivers, the handshake, the back-off and the queues",
S+"sub/driver.rs: poll, poll_publishers, connect, reset_publisher, on_connection", S+"sub/session.rs: poll", S+"pub/driver.rs: poll", S+"pub/session.rs: poll", "msg-common/src/task.rs: JoinMap")

p("Options keep the value they were last given",
"Whatever chain of option setters is called, each option of each socket ends up with the value it was last given, or its documented default if it was not set, independently of the others; every documented choice can be made. (Proved, except that three choices cannot be made: blocking_connect cannot be switched off, a publisher without flush interval cannot be had, and backoff_duration and retry_attempts change nothing.)",
"all chains of setter calls, all values",
"chains of calls are unbounded, and a setter that also touches another option shows only if that one was set before",
S+"req/mod.rs: ReqOptions", S+"rep/mod.rs: RepOptions", S+"pub/mod.rs: PubOptions", S+"sub/mod.rs: SubOptions")
p("A QUIC configuration carries the bandwidth it was built for",
"For every bandwidth and round-trip time given to the configuration builder, build() succeeds and the flow-control windows hold at least the bandwidth-delay product, so that the stream can reach the configured bandwidth; keep-alives keep an idle connection open. (Refuted for bandwidths below 1000 bytes per second: the window is 0; for products beyond 32 bits: panic, or a silently tiny window; for keep-alive intervals longer than the idle timeout. Proved for all others.)",
"all values of all builder options",
"ranges over all 32-bit bandwidths and round-trip times; only extreme ones fail",
T+"quic/config.rs: ConfigBuilder::build, Config::default")
p("A simulation has the configured conditions",
"A simulation started with a latency, a bandwidth, a loss rate and protocols subjects the traffic of these protocols to its endpoint to exactly these conditions; stopping it removes the pipe it created. (Proved for bandwidth, latency in whole milliseconds, defaults and removal. Refuted for the loss rate, a percentage handed on as a fraction, and for the protocols, which are ignored.)",
"all configurations, ids and endpoints",
"needs root on macOS (the repository's own tests of it are ignored), and all configurations",
M+"lib.rs: Simulation::start", M+"dummynet.rs: Pipe::build_cmd, destroy_cmd, PacketFilter::apply_dummynet_rule", M+"protocol.rs: Protocol")

p("No work waits for ever behind other work",
"Each task of a socket has several sources of work (calls of the application, frames from the peer, frames to the peer, new connections, timers). While the connections work, every piece of work is done after a number of turns of its task that is bounded by the work of its own kind before it; a source that always has something to offer does not hold up the others. (Proved with explicit bounds for: requests while the server is silent, responses, reading requests from a client, messages to a subscriber, subscriptions while nothing is published, control frames of a subscriber while the publisher is silent. Refuted, with runs of every length, for: calls, frames and timeouts of a request socket whose server keeps sending; new connections of a reply socket while a client keeps sending; subscriptions at a publisher that keeps publishing; commands and control frames of a subscriber whose publisher keeps sending.)",
"all histories, all numbers of turns, all sockets and options",
"starvation is the absence of an event over an unbounded time; a test can only wait a while, and the bounds range over all queues and histories",
S+"req/driver.rs: ReqDriver::poll", S+"rep/driver.rs: RepDriver::poll, PeerState::poll_next", S+"pub/session.rs: SubscriberSession::poll", S+"sub/session.rs: PublisherSession::poll", S+"sub/driver.rs: SubDriver::poll")

p("An unfinished handshake does not hold a place for ever",
"A peer that connects and then says nothing does not hold up the others: a place taken by a connection in its handshake (of a reply socket or a publisher with a client limit) or by a connection attempt (of a request socket or a subscriber) becomes free again after some time even if the peer stays silent; and it becomes free at once when the handshake fails. (The second half is proved. The first is refuted for all four sockets: no handshake has a time limit, so as many silent clients as there are places lock a reply socket or publisher for ever; a silent server stalls a request socket, whose calls do not even time out; a silent publisher blocks its address at a subscriber.)",
"all histories, all limits, all continuations in which the silent peers stay silent",
"that a place is never given back is a claim about all continuations of all lengths; a test waits for a while and cannot tell slow from never",
S+"rep/driver.rs: RepDriver::on_incoming, poll", S+"pub/driver.rs: PubDriver::on_incoming, poll", S+"req/driver.rs: ReqDriver::connect, poll", S+"sub/driver.rs: SubDriver::connect, poll_publishers", C+"task.rs: JoinMap")

p("A QUIC listener hands on every connection once, in order, and gives its address up when it is dropped",
"poll_accept of a bound QUIC transport hands on the connections that arrive, each once and in the order of arrival, whatever the interleaving of the accepting task with the polls, and never panics; if nothing fails, every connection that arrived is handed on after boundedly many turns. After an endpoint failure only what was already taken is handed on. When the transport is dropped, its address becomes free and clients are refused. (The last sentence is refuted: the accepting task keeps the endpoint until another client connects; that client's connection is established and then lost.)",
"all histories of arrivals, turns of the accepting task, polls, failures and the drop",
"the accepting task and poll_accept are separate tasks joined by a bounded channel; order and loss must hold for every interleaving, and a leak of the endpoint shows only as the absence of an event",
T+"quic/mod.rs: Quic::poll_accept")
p("A failing listener or a connection that cannot be established does no harm",
"If a reply socket or a publisher accepts a connection that then cannot be established (or its listener reports an error), everything that happens from then on is what would have happened without it: the same requests are received, responses and messages are sent, clients are admitted and refused, and active_clients() is the same, for every earlier, simultaneous and later history.",
"all histories before, between and after the failing accept; all options",
"comparing two whole executions that differ in one failure, for all histories; a test compares a few observations of one",
S+"rep/driver.rs: RepDriver::poll, on_incoming", S+"pub/driver.rs: PubDriver::poll, on_incoming", T+"tcp/mod.rs: poll_accept", T+"ipc/mod.rs: poll_accept")

p("Every call of a subscriber socket has the documented result",
"While the socket exists, subscribe/unsubscribe return ReservedTopic exactly for topics starting with \"MSG\", connect/disconnect return NoValidEndpoints exactly when the address cannot be resolved or parsed, and every other call succeeds iff fewer than 1024 commands of earlier calls are still to be processed; otherwise the try_ forms return ChannelFull and the async forms wait. A call that does not succeed changes nothing; 0.0.0.0 and [::] are dialled as 127.0.0.1 with the same port.",
"all histories, all calls with all arguments",
"depends on the number of commands in flight at the time of the call, i.e. on the history and the schedule; ranges over all topics and addresses",
S+"sub/socket.rs: connect, try_connect, disconnect, try_disconnect, subscribe, try_subscribe, unsubscribe, try_unsubscribe, send_command, try_send_command")

p("A subscriber redials an unreachable publisher on schedule and gives it up after fifteen dials",
"After connect(), or after a connection has been given up, as long as no connection is made and the application does not disconnect or connect anew: the driver dials the publisher when the initial back-off is over, then after twice that time, and so on, fifteen times; when the sixteenth wait is over it gives the publisher up. It never dials earlier or more often; it leaves a dial out only while an earlier attempt is still under way (or one has panicked).",
"all histories before and meanwhile, all times at which the driver looks, all initial back-offs up to the longest Duration divided by 2^16",
"depends on the times of polls relative to one another and on attempts that overlap; a test follows one schedule for a few seconds",
S+"sub/driver.rs: poll_publishers, connect, reset_publisher", S+"connection/backoff.rs")

p("Collecting dials, resets and removals until the end of a pass makes no difference to a subscriber",
"A subscriber looks at all its publishers before it dials, resets or removes any of them, and tries to send a new subscription to all of them before it resets those that are gone. A user may nevertheless think of each publisher as being dealt with on its own: the outcome is the same, each connection and each publisher see the same things in the same order, and messages and commands are handled in the same order.",
"every history before, every order in which the publishers are visited, every number of turns in one poll",
"the difference would show only when several publishers answer, fail and run out of retries in the same turn, in an order chosen by a hash map",
S+"sub/driver.rs: poll_publishers, subscribe, unsubscribe, reset_publisher")

p("A client that has connected gets to be known to the server",
  "A client whose connect() has succeeded is known to the server's socket, also if it writes nothing yet; a place of max_clients is only held by such clients. (Over QUIC this is refuted: the server learns of the connection with the client's first byte, and silent clients hold all places, with or without an authenticator. Proved: a connection is accepted only after its first byte or its end, and a client that has written is always accepted, unless the connection is lost.)",
  "all histories of a QUIC connection (any order of handshake, writes, deliveries, losses and polls); all histories of a reply socket or publisher in which accept futures do not complete",
  "a test's client writes at once; a silent one would have to be waited for without end",
  T+"quic/mod.rs: Quic::connect, Quic::poll_accept", T+"quic/stream.rs: QuicStream", S+"rep/driver.rs: poll", S+"pub/driver.rs: poll")

WHY = {
 "C02": "The claim ranges over every message sequence and every way of cutting the byte stream; both sets are infinite, and a loop-back test sees only the few cuts its kernel happens to make.",
 "C04": "It must hold for every byte string an attacker can send, in every fragmentation; tests and fuzzing only try finitely many malformed inputs.",
 "C05": "It must hold for every foreign first byte and every continuation of the stream, however long.",
 "C06": "It compares the results for any two chunkings of any stream; pairs of chunkings cannot be enumerated.",
 "C08": "Round trips through encode, compress and decompress are only sampled by tests; the claim is for all payloads, thresholds and codecs.",
 "C09": "Four code paths times every payload size and threshold; a test picks a few sizes and easily misses the boundary value on one path.",
 "C10": "Responses may come in any order, late, duplicated or with invented ids, across reconnects; a test follows one schedule.",
 "C11": "Exactly-once completion must survive every interleaving of answers, timeouts, reconnects and shutdown; histories are unbounded.",
 "C12": "Ranges over every set of pending requests, every timeout and every pair of clock values, including the exact boundary.",
 "C13": "Needs adversarial schedules (the peer goes away, or keeps sending) at every possible moment; tests use a cooperative peer.",
 "C14": "Back-pressure can occur before or after any frame; the number of schedules is unbounded.",
 "C15": "The connection may break at any point of any history and in several ways (error, reset, clean close).",
 "C16": "A caller hangs only in rare histories (driver ends between accepting a call and answering it); a test would need to hit every such point.",
 "C17": "Ranges over every initial delay, limit and number of failures; long back-off sequences take hours in real time.",
 "C18": "An option that is ignored shows only after many failures, and 'retries for ever' cannot be observed in finite time.",
 "C19": "It is an inequality about every sequence of samples, with rounding at each step; tests check a few averages.",
 "C20": "The drift builds up over long sequences of samples with unlucky rounding, which tests do not generate.",
 "C21": "Accounting identities must hold at every point of every history, including failed and partial sends.",
 "C22": "Any number of clients, requests answered in any order, clients leaving in between: the schedules are unbounded.",
 "C23": "Needs one particular order of completions and wake-ups between two polls of the same task.",
 "C24": "The limit must hold after every sequence of arrivals, departures, failed and pending handshakes.",
 "C25": "The counter must be right after every history, including handshakes that fail or panic and address clashes.",
 "C26": "Quantifies over everything an unauthenticated peer may send, in any fragmentation and at any time.",
 "C27": "Non-interference is a statement about pairs of histories with any number of clients; tests run one.",
 "C28": "Ranges over all sequences of subscribe and unsubscribe with all topic strings.",
 "C29": "A false match may need an unlucky combination of earlier subscriptions and unsubscriptions; their sequences are unbounded.",
 "C30": "Whether a match is missed depends on which other subscriptions are present; the combinations are unbounded.",
 "C31": "Ranges over all topics, of any depth, and all sets of subscriptions.",
 "C32": "A leftover after unsubscribe depends on the whole history of the trie; histories are unbounded.",
 "C33": "Depends on how publishing, sessions and slow connections interleave; tests see one schedule.",
 "C34": "Lag occurs only when a session falls behind by exactly the buffer size, at any point of any schedule.",
 "C35": "Ranges over every message a subscriber can send.",
 "C36": "Ranges over every topic string, including those that look like control messages.",
 "C37": "Needs the connection to refuse a frame at one precise moment; tests never see back-pressure on a control frame.",
 "C38": "Depends on the number of topics and on the moment of the connection; small tests stay below the limits.",
 "C39": "Set semantics must hold after every sequence of calls, with every order of duplicates.",
 "C40": "A race between a message in flight (or a connection attempt in progress) and the disconnect; a test cannot force every interleaving.",
 "C41": "The publisher may vanish at any point and in any of several ways; in-process tests close connections in one way.",
 "C42": "Needs a corrupt message followed by silence, and a claim about all wake-ups.",
 "C43": "Depends on the interleaving of several sessions, the driver and the application; schedules are unbounded.",
 "C44": "Ranges over all topic strings and all four calls that take one.",
 "C45": "Ranges over all lengths; the limit is a 16-bit field that ordinary tests never reach.",
 "C46": "Depends on histories of attempts that succeed, fail, panic or are cancelled in any order.",
 "C47": "Ranges over all addresses of both families, including unspecified ones.",
 "C48": "Must hold in whatever state the socket is dropped: connecting, connected, with queued commands or messages.",
 "C49": "Quantifies over everything a server may answer, cut anywhere, and every way its stream may end.",
 "C50": "Ranges over all lists of addresses and all combinations of which of them can be bound.",
 "C51": "A connection is lost only if the handshake is not complete at the moment of one poll; timing decides.",
 "C52": "Ranges over all byte sequences, valid UTF-8 or not.",
 "C53": "All interleavings of two sockets times all fragmentations, losses of connections and inputs.",
 "C54": "All interleavings of two sockets times all fragmentations, losses of connections and inputs.",
 "C55": "Bytes are lost only if application data arrives in the same read as the end of the handshake; timing decides.",
 "C56": "Depends on histories of starts and stops of several simulations.",
 "C57": "Termination of each poll must hold in every state and for every behaviour of the environment.",
 "C58": "Concurrent clients, compression failures and a full channel may occur at any point of any history.",
 "C59": "Ranges over all cut points of all streams.",
 "C60": "Idleness can be reached through every schedule; a lost wake-up or skipped queue shows in few of them.",
 "C61": "Accounting identity over every history of answers, late answers and errors.",
 "C62": "Overlapping attempts would need a particular order of failures, ticks and successes.",
 "C63": "Idleness can be reached through every schedule of publishing, lag and back-pressure.",
 "C65": "Invariant over histories of concurrent sessions, disconnects and re-connects.",
 "C66": "Ranges over all sequences of calls with all outcomes of the system calls.",
 "C67": "Ranges over all values of all options; only extreme ones fail.",
 "C68": "Ranges over all histories of bind and accept.",
 "C69": "Ranges over all states of the file system and of other processes.",
 "C70": "All interleavings of uses and drops of the two ends, all buffer sizes."
}
for x in P: x['why_tests_cant'] = WHY.get(x['id'], x['why_tests_cant'])
with open("/verif/properties.jsonl","w") as f:
    for x in P: f.write(json.dumps(x, ensure_ascii=False)+"\n")
print(len(P))
for x in P: print(x["id"], x["title"])
