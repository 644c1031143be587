(** Vocabulary for the reply-socket properties: functions of the log of effects only. *)
From Coq Require Import List NArith.
From Verif Require Import Model.Base Model.Map Model.WireReqRep Model.Compression Model.Framed Model.WireAuth Model.ReqDriver Model.RepDriver Spec.CompressSpec.
Import ListNotations.
Open Scope N_scope.

(** Connections admitted, in order. *)
Definition admitted (l : list rout) : list N := flat_map (fun x => match x with RAccepted c => [c] | _ => [] end) l.
(** Connections that came to an end: closed or failed and given back, thrown out by another one, or lost in a panic. *)
Definition ended (l : list rout) : list N :=
  flat_map (fun x => match x with RGone c | RReplaced c | RPanicked c => [c] | _ => [] end) l.
(** Ends for which the code forgets to give the slot back. *)
Definition leaked (l : list rout) : list N :=
  flat_map (fun x => match x with RReplaced c | RPanicked c => [c] | _ => [] end) l.
(** Connections being established or live. *)
Definition live (l : list rout) : list N := filter (fun c => negb (smem c (ended l))) (admitted l).

(** Frames given to connection [cid], in order. *)
Definition handed_on (cid : N) (l : list rout) : list rr_msg :=
  flat_map (fun x => match x with RHanded c m _ => if eq_dec c cid then [m] else [] | _ => [] end) l.
(** Frames some connection took (for the byte counter). *)
Definition taken_frames (l : list rout) : list rr_msg :=
  flat_map (fun x => match x with RHanded _ m true => [m] | _ => [] end) l.

(** [m] is a correct answer on connection [cid] to the request [rid]: the request came in on [cid], the application
    responded to it with some [x], and [m] carries the request's id and - if the configured compressor is inverted by the
    protocol's decompressors - decompresses to [x]. *)
Definition answers (co : option compressor) (D : decompressors) (l : list rout) (cid rid : N) (m : rr_msg) : Prop :=
  exists addr req x,
    In (RIncoming cid addr rid req) l /\ In (RResponded rid x true) l /\ rr_id m = rr_id req /\
    ((forall c, co = Some c -> inverse_of D c) -> try_decompress D (rr_ctype m) (rr_payload m) = Some x).

(** The compressor, if any, does not fail on [x]. *)
Definition compressible (co : option compressor) (x : bytes) : Prop :=
  forall c, co = Some c -> cmp_fun c x <> None.

(** Requests put into the channel to the application, and received by it. *)
Definition yielded (l : list rout) : list request := flat_map (fun x => match x with RYield q => [q] | _ => [] end) l.
Definition got (l : list rout) : list request := flat_map (fun x => match x with RReceived q => [q] | _ => [] end) l.
Definition lost_rids (l : list rout) : list N := flat_map (fun x => match x with RLost r => [r] | _ => [] end) l.
(** Frames received: (address of the connection, request number, frame). *)
Definition incoming (l : list rout) : list (N * N * rr_msg) :=
  flat_map (fun x => match x with RIncoming _ a r m => [(a, r, m)] | _ => [] end) l.

(** No new external event during an iteration of the driver: no inbound connection, and no connection yields a message or
    an error (it may have nothing to say or be closed). *)
Definition quiet (d : denv) : Prop :=
  d_accept d = false /\ forall a e, In e (d_peers d a) -> p_next e = NxPending \/ p_next e = NxEof.

(** Work waiting at the peer with address [a]: frames queued, and two steps per pending request. *)
Definition work (a : N) (s : rp) : nat :=
  match mget a (rp_peers s) with Some p => length (pr_egress p) + 2 * length (pr_pending p) | None => 0 end.
(** Open peers. *)
Definition served (s : rp) : nat := length (filter (fun ap => pr_open (snd ap)) (rp_peers s)).

(** [x] is an effect of or on connection [c]: it is admitted, takes part in a handshake, starts to be served, a request
    arrives on it, or a frame is queued for or written to it. *)
Definition acts_on (c : N) (x : rout) : Prop :=
  match x with
  | RAccepted c' | RAuthed c' _ _ | RAuthReply c' _ | ROpen c' _ | RIncoming c' _ _ _ | RQueued c' _ _ | RHanded c' _ _ => c' = c
  | _ => False
  end.

(** A frame, or a response not yet made a frame, waits in the open connection [c]. *)
Definition frame_waits (s : rp) (c : N) (m : rr_msg) : Prop :=
  exists a p, mget a (rp_peers s) = Some p /\ pr_open p = true /\ pr_cid p = c /\ In m (pr_egress p).
Definition response_waits (s : rp) (c rid : N) : Prop :=
  exists a p, mget a (rp_peers s) = Some p /\ pr_open p = true /\ pr_cid p = c /\ In rid (map fst (pr_pending p)).

(** A concrete history: two clients (addresses 7 and 9) connect and each sends a request with id 3; the application answers
    the second one first. *)
Definition rx_penv (n : next_ans) : penv := mkPenv true true true (Some 0) n.
Definition rx_start : list rp_event :=
  [VAccept; VConn 0 (Some (Some 7)); VAccept; VConn 0 (Some (Some 9));
   VPeer 7 (rx_penv (NxMsg (rr_new 3 x00 [x41]))); VPeer 9 (rx_penv (NxMsg (rr_new 3 x00 [x42]))); VRecv; VRecv].
Definition rx_hist : list rp_event :=
  rx_start ++ [VRespond 1 [x62]; VRespond 0 [x61; x61]; VPeer 9 (rx_penv NxPending); VPeer 9 (rx_penv NxPending);
               VPeer 7 (rx_penv NxPending); VPeer 7 (rx_penv NxPending)].
(** Answers for one iteration of the driver in which nothing happens outside. *)
Definition rx_quiet : denv := mkDenv [] (fun _ => repeat (rx_penv NxPending) 8) None None false.
(** A client's auth frame for [token] arriving in one piece. *)
Definition rx_auth (token : bytes) : list io := [IoData (fst (au_encode au_client (AuthM token)))].
