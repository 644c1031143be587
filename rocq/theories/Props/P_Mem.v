(** GENERATED by tools/gen_props.py from Proofs/T_Mem.v: statements only. *)

(** C85: buffers and slow peers. *)
From Coq Require Import List NArith.
From Verif Require Import Model.Base Model.Map Model.Stats Model.Framed Model.WireReqRep Model.WirePubSub Model.WireAuth Model.Compression Model.Trie Model.Backoff Model.Handshake Model.JoinMap Model.ReqDriver Model.RepDriver Model.PubDriver Model.SubDriver
  Spec.Wire Spec.Stream Spec.ReqSpec Spec.RepSpec Spec.PubSpec Spec.SubSpec.
Import ListNotations.
Open Scope N_scope.
From Verif Require Import Proofs.T_Mem.

(** C85 (publisher): however slow its subscriber is, a session has use for only the newest [bcast_cap buf] messages published so far (fewer than twice
    session_buffer_size): whatever happens from a state on, the session takes none of the older ones any more. *)
Theorem C85_publisher_backlog :
  (forall buf, 1 <= buf -> bcast_cap buf < 2 * buf) /\
  (forall max buf min auth co s evs s' new cid i,
   pb_run max buf min auth co s evs = (s', new) -> In (QTook cid i) new -> blen (pb_hist s) <= i + bcast_cap buf).
Proof. exact C85_publisher_backlog_pf. Qed.
Print Assumptions C85_publisher_backlog.

(** C85 (subscriber), what holds: in every history, a session's messages waiting for the driver, its commands waiting for it, the
    commands waiting for the driver and the messages waiting for the application never exceed 1024, 64, 1024 and
    ingress_buffer_size: what does not fit is refused and reported to the log, and a full queue costs nothing else. *)
Theorem C85_subscriber_queues_partial :
  forall token ingress initial D evs s log,
  sb_run token ingress initial D sb_init evs = (s, log) ->
  blen (sb_cmdq s) <= 1024 /\ blen (sb_out s) <= ingress /\
  forall cid x, mget cid (sb_conns s) = Some x -> blen (sc_in x) <= 1024 /\ blen (sc_cmds x) <= 64.
Proof. exact C85_subscriber_queues_partial_pf. Qed.
Print Assumptions C85_subscriber_queues_partial.

(** C85 (subscriber), refuted for the frames waiting to be written: a session goes on taking commands from its queue while its connection
    accepts nothing.  By subscribing and unsubscribing, the application can make its buffer arbitrarily long. *)
Theorem C85_subscriber_egress_refuted :
  forall n, exists evs s log x,
  sx_run evs = (s, log) /\ mget 0 (sb_conns s) = Some x /\ sc_alive x = true /\ (n <= length (sc_egress x))%nat.
Proof. exact C85_subscriber_egress_refuted_pf. Qed.
Print Assumptions C85_subscriber_egress_refuted.

(** C85 (request), refuted: the driver goes on taking calls from the channel while its connection accepts nothing, and a frame stays queued when its call
    has timed out.  However many calls time out, their frames are all kept: the queue is not bounded by the callers waiting
    (there are none), by a channel capacity or by a back-pressure option. *)
Theorem C85_request_queue_refuted :
  forall D n, exists evs s log,
  rd_run ex_opts None D rd_init evs = (s, log) /\ rd_conn s = RActive /\ length (rd_egress s) = n /\ rd_pending s = [] /\ rd_cmds s = [] /\
  length (issued evs) = n /\ forall c p, In (c, p) (issued evs) -> In (Resolve c OTimeout) log.
Proof. exact C85_request_queue_refuted_pf. Qed.
Print Assumptions C85_request_queue_refuted.

(** C85 (reply), what holds: at most 1024 requests wait for the application. *)
Theorem C85_reply_queue_partial :
  forall max min auth co D evs s log, rp_run max min auth co D rp_init evs = (s, log) -> blen (rp_chan s) <= 1024.
Proof. exact C85_reply_queue_partial_pf. Qed.
Print Assumptions C85_reply_queue_partial.

(** C85 (reply), refuted for the responses of a client: the driver goes on reading requests from a connection that accepts no responses.  A client that
    only sends makes the queue of its responses arbitrarily long. *)
Theorem C85_reply_egress_refuted :
  forall D n, exists evs s log p,
  rp_run None 0 None None D rp_init evs = (s, log) /\ mget 7 (rp_peers s) = Some p /\ pr_open p = true /\ length (pr_egress p) = n /\ handed_on 0 log = [].
Proof. exact C85_reply_egress_refuted_pf. Qed.
Print Assumptions C85_reply_egress_refuted.

(** With a buffer of 4, message 0 is out of reach of a subscriber that reads nothing while 5 are published; it gets the other four. *)
Example C85_publisher_example :
  let r := pb_run None 4 100 None None pb_init ([WAccept; WConn 0 (Some true); WSession 0 (px_env (px_sub [x61]))] ++ repeat (WTryPublish [x61] [x01]) 5) in
  let q := pb_run None 4 100 None None (fst r) (px_idle 9 0) in
  blen (pb_hist (fst r)) = 5 /\ bcast_cap 4 = 4 /\
  flat_map (fun x => match x with QTook c i => [i] | _ => [] end) (snd q) = [1; 2; 3; 4] /\ length (sent_to 0 (snd q)) = 4%nat.
Proof. exact C85_publisher_example_pf. Qed.

