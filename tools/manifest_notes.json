{
 "C03": {
  "note": "Violated by the code: the server-side decoder panics on some splits (auth.rs 75-87). The partial theorem is an exact characterisation (token obtained iff no read ends at a fatal position)."
 },
 "C04": {
  "note": "Proved for the request/reply and pub/sub decoders and the client side of auth; the server side of auth panics (refuted, exact characterisation given)."
 },
 "C07": {
  "note": "Violated for payloads of 2^32 bytes or more (`as u32` truncation); exact law proved, correct below 2^32."
 },
 "C09": {
  "note": "Violated on some paths (respond() ignores the threshold, try_publish(), len = threshold); exact laws proved for every path."
 },
 "C20": {
  "note": "Violated: repeated rounding drifts arbitrarily far from the mean."
 },
 "C29": {
  "note": "Proved for subscriptions whose > is in final position; with > inside, unsubscribe leaves a ghost subscription (refuted).",
  "status": "partial"
 },
 "C30": {
  "note": "Violated: an exact sibling token shadows *. Partial theorem: forwarded unless shadowed."
 },
 "C31": {
  "note": "Violated: > never matches anything but a literal > token. Exact behaviour proved."
 },
 "C32": {
  "note": "Proved for subscriptions whose > is in final position; refuted for > elsewhere."
 },
 "C13": {
  "note": "Violated while disconnected and under continuous inbound traffic (refuted); proved for an idle active connection."
 },
 "C15": {
  "note": "Violated: a clean close by the server ends the driver for good. Proved for wire/transport errors."
 },
 "C18": {
  "note": "Violated: retry_attempts, backoff_duration and blocking_connect have no effect; at most 15 attempts are ever made."
 },
 "C21": {
  "note": "Violated: the wire-id byte is not counted (exact law proved per socket kind)."
 },
 "C57": {
  "note": "Proved for the request, reply, publisher and subscriber drivers and for publisher and subscriber sessions."
 },
 "C23": {
  "note": "Violated: taking a dropped request off the pending set lets the driver go idle with an answer unsent (refuted). Proved for clients none of whose requests were dropped."
 },
 "C24": {
  "note": "Proved for the reply and the publisher socket."
 },
 "C25": {
  "note": "Violated (auth task panic; reply socket: client evicted by one with the same address); exact law proved for both sockets."
 },
 "C26": {
  "note": "Proved for the reply and the publisher socket."
 },
 "C27": {
  "note": "Violated: a new connection with the address of a connected client evicts it; on IPC all clients share one address. Isolation proved for different addresses."
 },
 "C35": {
  "note": "Violated: ControlMsg::Close is only logged, the session goes on. Exact behaviour proved."
 },
 "C45": {
  "note": "Violated on both sides: a topic of 65536 bytes or more crashes the session task. Proved: nothing else does."
 },
 "C59": {
  "note": "Violated at one cut position: an end of stream right after a header is reported as an orderly close. Proved for all other cut positions."
 },
 "C61": {
  "note": "Violated: bytes_rx does not count the wire-id byte. Exact law proved."
 },
 "C49": {
  "note": "Proved for the handshake function, the subscriber and the request socket."
 },
 "C55": {
  "note": "Proved for both handshakes, for peers that wait for the acknowledgement (as both clients do); the end-to-end theorems C53, C54 rest on it."
 },
 "C52": {
  "note": "Proved for the decoding function used on both sides; the end-to-end statement is C54."
 },
 "C37": {
  "note": "Violated under back-pressure: a control frame the connection does not accept at once is put back at the end of the egress queue (sub/session.rs 129-133), behind later ones. Proved in the absence of back-pressure; always: no command is lost, duplicated or altered."
 },
 "C38": {
  "note": "Violated: more than the channel capacity of topics on connect are dropped (try_send ignored). Proved below it."
 },
 "C40": {
  "note": "Violated by in-flight connection attempts and re-use; partial theorem for the established session."
 },
 "C41": {
  "note": "Violated: EOF/wire error stalls the session without a waker. Partial theorems give what does hold."
 },
 "C42": {
  "note": "Violated: an undecodable message makes no progress and the rest of the queue waits for the next wake-up. Proved otherwise."
 },
 "C46": {
  "note": "Violated: a panicked connect task never leaves the map (and puts the driver to sleep). Proved: at most one per address always; slot freed after normal completion or cancellation."
 },
 "C47": {
  "note": "Violated for unspecified addresses (connect rewrites them to localhost, disconnect does not). Proved for all others."
 },
 "C48": {
  "note": "Violated: sessions and connect tasks survive the socket; partial theorem states what is released."
 },
 "C64": {
  "note": "Proved for subscriber and publisher tasks up to the listed exceptions, which are refuted by examples."
 },
 "C65": {
  "note": "Violated: stale statistics after giving up on a publisher. Partial theorem for the rest."
 },
 "C50": {
  "note": "Proved for TCP, QUIC and IPC transports. Assumes the operating system can report the address of a listener it has created (TCP, QUIC) and that the list has no path twice (IPC). A transport the program bound itself beforehand keeps its old address when no listed address works (C50_transport_already_bound)."
 },
 "C51": {
  "note": "Refuted: Acceptor::poll drops the accept future when it is not ready at once, so QUIC connections get lost and the task is never woken. Holds for TCP and IPC, whose accept futures are always ready."
 },
 "C56": {
  "note": "Ids are distinct (proved; 1, 2, 3, ... for Simulator::new(), while Simulator::default() starts with 0, which is no pipe number). Restarting an endpoint leaves nothing active (the old simulation is dropped, i.e. its packet filter destroyed, after the new one was set up); starting or stopping one simulation ends all others; on Linux nothing happens at all. Shell commands are modelled by their documented effect."
 },
 "C66": {
  "note": "Refuted: the transport is consumed by the first bind/connect even if it fails, the next call panics; an unbound reply socket panics when polled. Exact laws proved for all histories."
 },
 "C67": {
  "note": "Refuted: timeout < 10 ns, flush interval 0, buffer sizes 0 panic. All other values work (capacities up to tokio's limits); not modelled: memory exhaustion, e.g. max_clients close to usize::MAX in StreamMap::with_capacity."
 },
 "C68": {
  "note": "Holds for TCP and IPC; refuted for QUIC (a second bind after the first accept is ignored by accept)."
 },
 "C69": {
  "note": "Refuted (IPC bind removes whatever file is there). Other paths and directories are untouched."
 },
 "C53": {
  "status": "proved",
  "note": "Proved for the request driver, the reply driver, both handshakes and the codec joined by reliable ordered byte streams (Model/ReqRepNet.v), for every interleaving, fragmentation, reconnect and other client. Assumes fewer than 2^32 calls (ids wrap), frames and token below 4 GiB, and compressors inverse to their decompressors."
 },
 "C54": {
  "note": "Proved over the joint model (Model/PubSubNet.v): both drivers, all sessions, handshake, both codecs and Framed, the byte streams, arbitrary other peers. Hypotheses: payloads < 4 GiB, token < 4 GiB, timestamps u64, topics valid UTF-8 (Rust strings are), decompressor inverse to the compressor; for matching, `>` only at the end of subscriptions (C29)."
 },
 "C71": {
  "note": "Proved over both joint models (Model/ReqRepNet.v, Model/PubSubNet.v). Hypothesis: tokens below 4 GiB."
 },
 "C72": {
  "note": "Proved for the write half of Framed (Model/FramedWrite.v) and for the four sockets joined with it (Model/Writers.v). End-to-end statements assume ids and payload lengths in range."
 },
 "C73": {
  "note": "Bound proved without write errors (request, reply, publisher) and unconditionally (subscriber); refuted with write errors: Poll::Ready(Err) of poll_ready is taken as ready."
 },
 "C74": {
  "note": "Refuted for all four sockets: write errors are ignored; the connection is kept until reading reports an end."
 },
 "C75": {
  "note": "Proved for request, reply and publisher sockets; for the subscriber only if no flush failed before (stream.rs takes an error for success, see C74)."
 },
 "C76": {
  "note": "Quiescent form: states what must hold when there is nothing left to read or write; that such a state can always be reached is C77."
 },
 "C77": {
  "note": "Existence of a bounded way to rest from every reachable connected state; that every fair schedule gets there is C81. Frames lost before (refused by the connection, written on an earlier connection, discarded by the application, channel of 1024 full) are excluded explicitly."
 },
 "C78": {
  "note": "Existence of a bounded way back, as in C77. Not covered because false: a driver that has used up its retries, or whose connection reported end-of-file, stops for good (C15, C18)."
 },
 "C79": {
  "note": "Existence of a bounded way to finish from every reachable state with a working connection, as in C77; that every fair scheduler finishes is C82. The exact account of what is obtained excludes nothing but messages pushed out of the session buffer and (as hypotheses) messages refused earlier by a full ingress queue."
 },
 "C80": {
  "note": "From a state at rest. Topics must fit the wire format (longer ones panic, C45) and must not be reserved (C44). The filter's deviations from the documented wildcards are C29-C31."
 },
 "C81": {
  "note": "No new calls and no timeout checks from the moment considered on (the load is what is under way then); the events are those of this connection and the application. The bound of 1024 is the capacity of the reply socket's queue: a request that finds it full is lost in the code."
 },
 "C83": {
  "note": "Proved for connected sockets whose peers read; refuted for the rest (see the _refuted theorems): drivers that never notice the drop, a session whose subscriber does not read, a request task without connection."
 },
 "C84": {
  "note": "Non-interference over whole pairs of histories proved for the publisher; for the subscriber as long as the queue to the application does not overflow and the session does not crash on an oversized topic; for the reply socket as long as nobody takes over the client's address and the queue to the application is not full when a request of the client comes. Refuted for those exceptions (shared queues)."
 },
 "C85": {
  "note": "Bounds proved for the publisher's backlog, the subscriber's inbound and command queues, and the reply socket's request queue; unbounded growth of the outgoing queues proved for every size. Write buffers are C73."
 },
 "C86": {
  "note": "Existence of a bounded way back, as in C78. Not covered because false: a connection whose end the session does not notice (C41), a publisher given up after the last retry, a key whose task panicked (its entry in the JoinMap stays)."
 },
 "C87": {
  "note": "All setters of all four sockets proved; three documented choices cannot be made (refuted)."
 },
 "C88": {
  "note": "Exact law of the windows proved; refuted for small bandwidths, 32-bit overflow and keep-alive beyond the idle timeout. quinn itself is not modelled."
 },
 "C89": {
  "note": "Commands against a small specification of dnctl(8). Refuted: loss rate (percent handed on as fraction), protocols ignored. Which filter is active after several starts and stops is C56."
 },
 "C90": {
  "note": "Explicit bounds for six kinds of work (*_turn_partial); starvation proved for the others (*_refuted): every task's loop restarts at its first source after each success. tokio's cooperative budget only interrupts a poll; the next one starts again with the first source (for the request socket this is part of the theorem)."
 },
 "C91": {
  "note": "Refuted for all four sockets (a silent peer holds its place in every continuation); proved that a failed handshake gives its place back at once (*_place_given_back_partial)."
 },
 "C92": {
  "note": "Order, no panic, no loss and the law after a failure are proved for all interleavings. Refuted: a dropped transport does not give up its address until the next client connects; proved that this client's connection frees it (and is lost)."
 },
 "C93": {
  "note": "Comparison of two runs from the initial state that differ in one failing accept, for both listening sockets. Connections are numbered by admission, so later ones have the next number (rep_later, pub_later in Spec/ListenSpec.v)."
 },
 "C94": {
  "note": "The number of waiting commands is computed from the history (commands of successful calls minus commands processed); C37 says that they are processed in order."
 },
 "C95": {
  "note": "Whether and when the driver looks at the publisher is the environment's choice (it is woken by the back-off timer: C64)."
 },
 "C96": {
  "note": "Justifies modelling each publisher's action at once, and leaving out tokio's cooperative budget, in Model/SubDriver.v. Sessions running on other threads between the looks and the resets of one pass are not interleaved in Model/SubPass.v."
 },
 "C97": {
  "note": "What quinn does at open_bi / accept_bi is modelled as its documentation says. C97_silent_clients_hold_places_refuted is about the whole system: driver plus one QUIC connection per accept future (Model/QuicDriver.v)."
 }
}
