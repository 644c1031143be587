# Formal model of chainbound/msg-rs in Rocq (Coq 8.16.1)

`/repo` is read as text only. Everything below `/verif/rocq/theories` is a hand-written
Gallina model of that text plus proofs about the model.

## Layout

| directory            | contents |
|----------------------|----------|
| `theories/Model/`    | executable model, definition by definition, each citing file and lines of `/repo` |
| `theories/Spec/`     | small independent specifications (no reference to model helpers) used in statements |
| `theories/Proofs/`   | lemmas and proofs |
| `theories/Props/`    | the property theorems only: statement, `exact`, a satisfiability `Example`, `Print Assumptions` |

## Modelling conventions

* bytes are `Coq.Init.Byte.byte`, `Bytes`/`BytesMut` are `list byte`; a `u32` is an `N` together with an
  explicit `< 2^32` side condition, casts `as u32` and `wrapping_add` are written as `mod 2^32`.
* `Result`/`Option`/`Poll` stay data. A Rust panic (index out of bounds, `split_to` past the end,
  `expect`) is an explicit value (`DPanic`, `SPanicked`, ...).
* A `&mut self` method is a function returning the new state. A `loop` in a `poll` function becomes a
  one-iteration function returning `Continue | Pending | Done`; executions are arbitrary interleavings
  of iterations with environment events (network bytes, timer expiry, application calls, completion
  orders). That over-approximates all schedules, as every await point lies between two iterations or
  at an explicit environment event. Termination of the loop is a theorem of its own (C57).
* Nondeterminism (hash-map iteration order, `FuturesUnordered` completion order, back-pressure,
  scheduling) is an argument of the step (an event label), and theorems quantify over all of them.
* Third-party code is modelled from its documented contract: tokio-util 0.7.10 `Framed`, tokio 1.35
  `mpsc`, `oneshot`, `broadcast`, `JoinSet`, `time::Sleep/Interval`; futures 0.3 `FuturesUnordered`;
  tokio-stream 0.1.14 `StreamMap`/`StreamNotifyClose`; `bytes` 1.5; `String::from_utf8_lossy`.
  Compression algorithms (flate2, zstd, snap, lz4_flex) and user authenticators are universally
  quantified functions.

## Plan per property

See `properties.jsonl` for the statements. R = the unchanged code violates the property as stated:
a `_refuted` theorem gives a witness and a `_partial` theorem proves what does hold.

| id | modelled | how it is proved |
|----|----------|------------------|
| C01, C02 | reqrep / pubsub codec + `Framed` read loop | round trip of one frame, then induction over arbitrary reads |
| C03 | auth codec | R: exact characterisation of the fatal read boundaries; round trip otherwise |
| C04 | the three decoders on arbitrary bytes | case analysis + byte conservation; R for the server side of auth |
| C05 | the three decoders + `Framed` | error stickiness by induction |
| C06 | `Framed` read loop | confluence: any chunking gives the run on the concatenation |
| C07 | `as u32` truncation | R at 2^32; exact law below |
| C08 | compression dispatch on all send/receive paths | functional equations, any compressor with an inverse |
| C09 | four send paths | R for respond()/try_publish()/length = threshold; exact laws |
| C10, C11, C12, C14, C16, C60, C61, C62 | request driver state machine | invariants over all event histories with a ghost log; R for C61 |
| C13, C15, C18 | request driver state machine | R by reachable witness; partial theorems |
| C17 | ExponentialBackoff | closed form by induction |
| C19, C20 | running average | invariant; R for C20 with the exact one-step law |
| C21 | statistics of all sockets | R (one byte per frame missing), exact law |
| C22, C23, C58 | reply driver and peer state machines | invariants with ghost log; R for C23 |
| C24, C25, C26, C27 | reply/publisher accept and auth state machines | invariants; R for C25, C27 |
| C28..C32 | prefix trie | refinement to sets of token paths; R for C29 (`>` inside), C30, C31, C32 |
| C33, C34, C63 | broadcast channel + publisher session | refinement to the publish log |
| C35, C36, C45, C52 | control messages, UTF-8 | case analysis over the lossy decoder; R for C35, C45 |
| C37..C44, C46..C48, C65 | subscriber socket, driver, session, stream, JoinMap | global + per-connection invariants; R for C37, C38, C40, C41, C42, C46, C47, C48, C65 |
| C49, C55 | both handshakes on an arbitrary stream of reads | stream induction |
| C50, C51, C68, C69 | transports: bind, try_bind, accept, Acceptor | list induction / runs; R for C51, C68, C69 |
| C53 | request socket + reply socket joined by byte streams (Model/ReqRepNet.v) | joint invariant: each side's log is a run of its own model, the link carries exactly its frames |
| C54 | publisher + subscriber joined by byte streams (Model/PubSubNet.v) | the same; composition with C33, C36, C43, C08, C29 |
| C56 | simulator | runs of the command interpreter; R |
| C57, C64 | all poll loops | well-founded measures; characterisation of the sleeping states; R for C64 |
| C59 | `Framed` at end of stream | R at one cut position, proved elsewhere |
| C66, C67 | life cycle of the socket objects, options | exact laws over call histories; R |
| C70 | the bi-directional channel | refinement to two bounded FIFO queues |
| C71 | joint models of C53/C54 with handshakes | the link invariant of C53/C54 carries: server in service with an authenticator, or acknowledgement sent, only if it accepted the client's token |
| C72 | write half of Framed (Model/FramedWrite.v), four sockets joined with it (Model/Writers.v) | invariant: taken ++ buffered = encodings of what was given; with C02/C03 end to end |
| C73 | the same | boundary invariant per iteration; refuted with failing writes by an inductive family of histories |
| C74 | the same | refuted by inductive families of histories (any number of iterations) |
| C75 | the same | invariant: buffer empty or flush flag set; case analysis of the sleeping iteration |
| C76 | Model/ReqRepNet.v (both drivers, links) | joint invariant over all interleavings: no id that is awaited has arrived; server invariant: an unanswered request on an open connection is with the application or settled; byte equation of a drained direction |
| C77 | Model/ReqRepNet.v (both drivers, links) | invariant: the reader of a live connection is never stuck (if it says "not readable", its buffer really holds no frame); a measure of the work left; in every connected state that is not at rest one of four cooperative steps lowers it; induction on it; then C53 and C76 |
| C78 | Model/ReqRepNet.v, Backoff.v, Handshake.v | invariants: the back-off of a live driver is 20 ms doubled per retry, a made connection belongs to an attempt in flight; explicit event sequence (fail what is under way, let the timer run out, connect, accept, handshake) computed symbolically from an arbitrary reachable state; then C77 |
| C79 | Model/PubSubNet.v (both drivers and sessions, links), Spec/NetSpec6.v | as for C77: the readers of a connection in use are never stuck; a measure of the work left (commands, frames, messages in each queue); in every state that is not at rest one of four steps (take, entry, subscriber session, publisher session) lowers it and disturbs nothing; induction; then C54's exact account of due messages, generalised to those not looked at yet |
| C80 | Model/PubSubNet.v, Trie.v | from rest: the call and the driver's step put exactly one command into the session's queue (telling other publishers may end other sessions, not this one); C79 brings it to the publisher, at rest the control frames read are those written, so the filter's history grows by this operation; then publish a batch and C79 again; C29/C30 for the wildcard reading |
| C81 | Model/ReqRepNet.v, Spec/NetSpec7.v (fair schedules) | every event in which somebody does his job either lowers a measure (work left, then bytes on their way; lexicographic) or changes nothing that decides who has work (reading in pieces: a reader given a prefix of the stream returns an item, or waits having used all of it); whoever has work lowers the measure when its real turn comes; well-founded induction along the schedule; measure 0 is rest and stays. A round-robin schedule is fair |
| C82 | Model/PubSubNet.v, Spec/NetSpec8.v (fair schedules, buffers that suffice) | as C81, for the subscriber's driver, its session, the publisher's session and the application that takes messages; the measure is messages and commands left, then bytes on their way; that the buffers suffice is kept by every event. What is obtained at rest: C54/C79's account, for any sequence of such events. A round-robin schedule is fair |
| C83 | Model/{ReqDriver,RepDriver,PubDriver}.v; Spec/ReqSpec.v (link_up), Spec/PubSpec.v (ready_polls) | request: measure of the frames and calls left, induction over the iterations; reply: the dropped flag and the empty channel are preserved by every step; publisher: the session's distance to the end of the history; refutations: the step functions do not read the flag, and concrete runs |
| C84 | Model/{PubDriver,RepDriver,SubDriver}.v; Spec/{IsoSpec,IsoRepSpec}.v (histories apart from one session, or as one client sees them) | non-interference of publisher and subscriber: a simulation between two runs that ignores one session, by induction on both histories (subscriber: as long as the shared queue does not overflow); reply socket: any history, seen by one client, is simulated by a machine that serves only this client (requests renumbered), so equal inputs give equal observations; concrete counterexamples for the shared queues |
| C85 | Model/{PubDriver,ReqDriver,RepDriver,SubDriver}.v | publisher: induction over the continuation; queues: the invariants of Proofs/SubDriverP2-4, RepDriverP; refutations: for every n a history of that size, by induction on n |
| C86 | Model/PubSubNet.v, Spec/NetSpec9.v | invariant: a connection attempt that has a connection is a running task; explicit event sequence (fail a handshake under way, let the timer run out, spawn, connect, accept, handshake) computed symbolically from an arbitrary reachable state; the new session's commands and the publisher's filter by the invariants of C34/C36 and C79's way to rest; then C80 |
| C87 | Model/Options.v, Spec/OptSpec.v | induction on the chain of calls from the end; independence of the request driver's runs of three options |
| C88 | Model/QuicConfig.v, Spec/OptSpec.v | arithmetic on the window computation, for all settings |
| C89 | Model/SimCmd.v, Spec/SimSpec.v (dnctl's argument syntax) | printing and reading of numbers are inverse; case analysis on the configuration |
| C90 | Spec/WaitSpec.v (turns in words) over the four drivers | potentials: egress + 2 * commands (request, subscriber session), 2 * pending + egress (reply client), lag and pending message (publisher session), each turn lowers them; starvation by induction on the number of turns |
| C91 | Spec/HandSpec.v (what a silent peer sends) over Handshake.v and the four drivers | a stalled handshake stays "running" (induction over reads); full state is invariant under every event; accounting invariants of C24/C25 for the place given back |
| C92 | Model/QuicAccept.v, Spec/QuicSpec.v | invariants over all interleavings (arrived = handed on ++ waiting); potential 3 * backlog + 2 * in hand + channel falls with every turn; the idle accepting task is invariant |
| C93 | Spec/ListenSpec.v over RepDriver.v and PubDriver.v | the two runs are related by "one more admission under way" and then by the renumbering; both relations are preserved by every event |
| C94 | Spec/SubSpec.v (call_result, waiting_commands) over SubDriver.v | the invariant of C37 (waiting = successful minus processed), case analysis |
| C95 | Spec/RedialSpec.v (redials) over SubDriver.v, Backoff.v | invariant: the publisher's back-off state is the state of the schedule; every other event leaves it alone |
| C96 | Model/SubPass.v (the loops as written: look, then dial, reset, remove), Spec/PassSpec.v (same_story) | refinement: each deferred action commutes with what is done to the other publishers; Permutation plus equal projections to each connection and publisher |
| C97 | Model/QuicStream.v, Model/QuicDriver.v, Spec/SilentSpec.v | invariant of the state machine of one connection (over all histories); counting lemma over RepDriver.v and PubDriver.v: no completed accept future, so admitted = min(max, arriving); the driver with its connections simulates such a history |

## Findings (each confirmed by a `_refuted` theorem or stated in an exact law unless marked (t) = from the text only)

Wire and compression
1. `auth.rs` 75-87: bounds checks are `len < 4` (then index 4 is read) and `len < id_size` (should be `5 + id_size`):
   a token split by the network at 4 bytes, or between `max(5,id_size)` and `4+id_size` bytes, panics the server's auth task (C03, C04).
2. Payloads of 2^32 bytes or more get a truncated length field (C07). `Message::size()` omits the wire-id byte (C21, C61).
3. An end of stream right after a header is reported as an orderly close (C59).
4. `rep/driver.rs` 296 and `pub/socket.rs` 176 ignore `min_compress_size`; elsewhere `>` instead of `>=` (C09).

Request socket
5. While inactive neither commands nor timeouts are processed, and inbound traffic starves the timeout check (C13).
6. An orderly close ends the driver for good (C15). `retry_attempts`, `backoff_duration`, `blocking_connect` have no effect (C18).
7. `req/stats.rs` 26: repeated truncation: the average may stay arbitrarily far from the mean (C20).

Reply socket
8. `rep/driver.rs` 291: a dropped request falls through without `continue`; an answer completed at the same time is stranded (C23).
9. A client with the address of a connected one replaces it and leaks its slot; on IPC all peers share one address (C25, C27).
10. A panicked auth task is not matched by `if let Some(Ok(..))`: the slot leaks (C25).
11. (t) Persistent accept errors spin the driver loop; the driver never ends after the socket is dropped.

Publisher
12. `trie.rs`: `foo.>` never matches `foo.bar` (C31); an exact sibling shadows `*` (C30); `a.>.b` cannot be unsubscribed (C29, C32).
    (t) The recursion depth of the trie is the number of tokens of a topic.
13. Malformed control messages are ignored (C35); oversized topics panic the session (C45).

Subscriber
14. End of stream or a wire error stalls the session for ever; the publisher's loss is not noticed (C41, C64).
15. `sub/session.rs` 133: back-pressure reorders control frames (C37). Only 64 topics reach a later-connected publisher (C38).
16. disconnect() does not stop an attempt in progress, nor the queued messages (C40); it is a no-op for unspecified addresses (C47).
17. An undecodable message stalls the queue (C42). A panicked connect task blocks its address and puts the driver to sleep (C46, C64).
18. Sessions and driver survive the socket (C48). Statistics of a given-up publisher are stale (C65).

Transports, life cycle, simulator
19. `Acceptor::poll` drops a pending accept future (C51); QUIC keeps serving the old endpoint after a rebind (C68);
    IPC bind deletes whatever is at the path (C69); (t) the QUIC incoming channel ends in `unreachable!`.
20. A failed bind/second connect panics; an unbound reply socket panics when polled (C66). Options that panic (C67).
21. Simulator: restart destroys the new filter, a second simulation or a stop ends all others, nothing happens on Linux (C56).
    (t) The status of the rule load is ignored; a failed start leaks its pipe and alias.
22. The handshake's read buffer is discarded: bytes pipelined behind the token or the ack would be lost. Neither client pipelines (C55).

23. Simulator: the loss rate in percent is handed to dnctl as a fraction, the protocols are ignored (C89). QUIC: a bandwidth below 1000 bytes
    per second gives windows of 0, large products overflow 32 bits (C88). `blocking_connect` cannot be switched off; nor the
    publisher's flush interval (C87).

24. Starvation: every loop starts over with its first source after each success. A server that keeps sending stops a request socket
    from writing, accepting calls and timing them out; a client that keeps sending keeps others from connecting; a publisher that keeps
    publishing never reads subscriptions; a subscriber that keeps receiving sends none (C90).

25. Handshakes have no time limit: as many silent connections as max_clients lock a reply socket or publisher with an authenticator; a
    silent server stalls a request socket (calls do not time out meanwhile); a silent publisher blocks its address at a subscriber, even
    after disconnect() and connect() (C91).

26. A dropped QUIC transport keeps its address: the accepting task holds the endpoint and notices the drop only when the next client has
    connected, whose connection is established and then lost (C92).
27. Simulator::default() starts counting at id 0, Simulator::new() at 1; 0 is no dummynet pipe number, so a default simulator's
    first start can never configure a pipe on macOS, and a failed start does not advance the id (C56).
28. Over QUIC a server learns of a connection with the client's first byte; a client that connects and stays silent is not served but
    holds a place of max_clients for as long as it keeps the connection, without any authenticator (C97).

## Trusted base

* Coq 8.16.1's kernel. No kernel check is switched off, there is no `Admitted`, no axiom, no functor or module type, no plugin.
* `Print Assumptions` follows every theorem in `theories/Props`; for each of them (more than 200 theorems) it prints
  "Closed under the global context": no axiom is used, not even of the standard library. (`vcheck` lists seven names of
  `Coq.ssr.ssrunder` as "library_axioms": they are the fields of a module type sealed in the standard library that gets loaded
  with `lia`/`Zify`; no theorem here depends on them.)
* The reading of `/repo` in `theories/Model`, including the contracts of third-party crates listed above.
* `tools/gen_props.py` only copies statements from `Proofs/T_*.v` to `Props/P_*.v`; the copies are what is compiled and checked.

### What is modelled

* msg-wire: `reqrep.rs`, `pubsub.rs`, `auth.rs` (encoders, decoders, all states), `compression/mod.rs` (dispatch; algorithms are
  arbitrary functions).
* msg-common: `task.rs` (JoinMap), `channel.rs`; `unix_micros` is an argument.
* msg-socket: `req/{socket,driver,mod,stats}.rs`, `rep/{socket,driver,mod,stats}.rs`, `pub/{socket,driver,session,trie,mod,stats}.rs`,
  `sub/{socket,driver,session,stream,mod,stats}.rs`, `connection/{backoff,state}.rs`: every branch of the poll functions, the public
  functions of the sockets, construction/bind/connect, options.
* msg-transport: bind, local address and accept of tcp, ipc, quic (with its accepting task, Model/QuicAccept.v, and the futures of one connection, Model/QuicStream.v, Model/QuicDriver.v; that quinn keeps the UDP
  socket while connections are open is left out) and `Acceptor`; connections themselves are reliable ordered byte streams
  (Model/Net.v) that may fragment, delay, fail and end at any point.
* msg-sim: `Simulator`, the dummynet command sequences and the command lines.
* `quic/config.rs` (ConfigBuilder, Config::default: the numbers handed to quinn), the option builders of all sockets.
* external: tokio-util `Framed` (read half: Model/Framed.v; write half with partial writes, errors and the back-pressure boundary:
  Model/FramedWrite.v, joined with the four sockets in Model/Writers.v), tokio `mpsc`/`oneshot`/`broadcast`/`JoinSet`, `StreamMap`, `FuturesUnordered`, `from_utf8_lossy`.

### What is not modelled

* Compression algorithms, TLS/QUIC internals (handshake, certificates, congestion), sockets of the operating system, DNS (`lookup_host`
  is an outcome chosen by the environment), the tokio scheduler (any interleaving of polls is allowed; fairness is assumed only where
  it is said: C81 and C82 quantify over all fair schedules of one connected pair, with no new calls, timeouts or failures meanwhile.
  Other liveness theorems are "the poll returns", "a sleeping task has nothing left to do", "when nothing is left to do, nothing
  is missing" (C54 and C76) and "there is always a bounded way to finish" (C77 to C80, for all reachable states).
* tokio's cooperative budget: it ends a poll after 128 operations, after which the task is woken and starts a new poll; the drivers' turns are the same.
  For the subscriber's driver Model/SubPass.v has it (any channel or timer may say at any time that there is nothing): C96_histories_as_written.
  (C90's theorem for the request socket allows turns at which the budget is used up.)  In the reply socket a turn may overlook finished
  responses (`p_pref = None`: the budget is used up, or `respond()` runs on another thread after the pending set has been polled): every
  safety theorem allows it; C23 (no response stranded) and C90 (bounded wait) say that the turns they speak about do look.  A spurious
  `Pending` of a session's command channel (its only effect: the queue of frames is rotated without a command being taken) is not modelled.
* Granularity: one pass of a task's loop is one atomic step.  A publisher's session, a request driver and a subscriber's session touch shared
  state (a channel, a broadcast slot) at most once per pass, so nothing is lost; a reply socket's pass touches two (finished responses, then the queue
  to the application), which `p_pref = None` covers.  The subscriber's greeting of a new connection (the session task is spawned, then one
  `try_send` per subscribed topic) is one step in the model; on several threads the session may take commands meanwhile, so beyond 64 topics more
  of them may get through than the model says (C38's loss beyond 64 topics is an upper bound on the loss).
* Wake-ups: which waker is registered is only modelled where a property speaks about it (C23, C41, C42, C46, C51, C64).
* Memory exhaustion, integer overflow of 64-bit counters (except where stated), stack depth, logging, `Drop` order inside tokio.
* In the joint models (Net, ReqRepNet, PubSubNet) the write half is ready / accepted / failed per message, partial writes showing up as
  fragmentation at the reader; Model/Writers.v shows per socket that this loses nothing (C72).
* benches, examples, tests, doc comments.
