(** Vocabulary for "there is always a way on" (C77). *)
From Coq Require Import List NArith.
From Verif Require Import Model.Base Model.Map Model.Compression Model.WireReqRep Model.Framed Model.ReqDriver Model.RepDriver Model.Net Model.ReqRepNet
  Spec.ReqSpec Spec.RepSpec Spec.NetSpec Spec.NetSpec3.
Import ListNotations.
Open Scope N_scope.

(** The payload fits a frame (the length field has 32 bits), as it is and compressed; a response must also be compressible. *)
Definition request_fits (co : option compressor) (p : bytes) : Prop :=
  blen p < 2 ^ 32 /\ forall cm z, co = Some cm -> cmp_fun cm p = Some z -> blen z < 2 ^ 32.
Definition reply_fits (co : option compressor) (x : bytes) : Prop :=
  blen x < 2 ^ 32 /\ forall cm, co = Some cm -> exists z, cmp_fun cm x = Some z /\ blen z < 2 ^ 32.
(** Fewer than 2^32 calls (the ids have 32 bits), each with a payload that fits. *)
Definition requests_fit (co : option compressor) (evs : list yev) : Prop :=
  blen (asked evs) < 2 ^ 32 /\ forall c p, In (c, p) (asked evs) -> request_fits co p.
Definition replies_fit (co : option compressor) (l : list rout) : Prop := forall rid x, In (RResponded rid x true) l -> reply_fits co x.

(** The request socket's active connection is its number [l], the reply socket serves it as its connection [cid], the reply
    socket was not dropped and has not met an error on the connection. *)
Definition connected (y : sys) (cid l : N) : Prop :=
  rd_done (sy_c y) = false /\ rd_conn (sy_c y) = RActive /\ sy_cur y = Some l /\ client_connection y cid l /\
  rp_dropped (sy_s y) = false /\
  (exists addr p, mget addr (rp_peers (sy_s y)) = Some p /\ pr_cid p = cid /\ pr_open p = true) /\
  (exists k, mget l (sy_links y) = Some k /\ fr_errored (en_fr (lk_s k)) = false).

(** Nothing is left to do: nothing is on its way, nothing is queued at either end, and the server application has taken and
    answered everything. *)
Definition at_rest (y : sys) (cid l : N) : Prop :=
  drained y l /\ session_idle (sy_s y) cid /\ client_idle (sy_c y) /\ rp_chan (sy_s y) = [] /\ rp_held (sy_s y) = [].

(** Events in which everybody does his job: an iteration of the client's driver at time [now] with a transport that takes
    frames and delivers data; the same for the reply socket's connections; the server application takes a request or responds
    to one.  No new calls, no failures, no timeouts, no connections coming or going. *)
Definition data_only (i : list io) : Prop := forall x, In x i -> exists b t, x = IoData (b :: t).
Definition cooperative (now : N) (ev : yev) : Prop :=
  match ev with
  | YClient e fails tio nio =>
    e_now e = now /\ e_ready e = true /\ e_send e = true /\ e_flush_ok e = true /\ e_ticks e = 0%nat /\ e_recv e = true /\ e_close e = false /\
    fails = false /\ tio = [] /\ data_only nio
  | YPeer _ e i => p_flush_ok e = true /\ p_ready e = true /\ p_send e = true /\ data_only i
  | YRecv | YRespond _ _ => True
  | _ => False
  end.
(** What happens meanwhile: at the client, calls are accepted, frames are taken by the connection and calls return Ok; *)
Definition fine_client (x : out) : Prop := match x with Accept _ _ _ | Handed _ true | Resolve _ (OOk _) => True | _ => False end.
(** at the server, requests arrive, reach the application, are answered with what [f] says, and the responses are written.
    ([l]: the whole log, to look up the request.) *)
Definition fine_server (f : bytes -> bytes) (l : list rout) (x : rout) : Prop :=
  match x with
  | RIncoming _ _ _ _ | RYield _ | RReceived _ | RQueued _ _ _ | RHanded _ _ true => True
  | RResponded rid x _ => exists addr q, In (RReceived (mkReq addr rid q)) l /\ x = f q
  | _ => False
  end.

(** Frame [m] of the client was lost before: the connection refused it; it was written on another connection than [l]; or the
    reply socket got it, and its application discarded it or could not be given it (its queue was full). *)
Definition lost_before (y : sys) (cid l : N) (m : rr_msg) : Prop :=
  In (Handed m false) (sy_clog y) \/ (exists l', l' <> l /\ written_on y l' m) \/
  exists rid, In (rid, m) (requests_on cid (sy_slog y)) /\ (In (RDiscarded rid) (sy_slog y) \/ In (RLost rid) (sy_slog y)).

(** How much is left to do, in steps: for a call the driver has not looked at, it has to be accepted (1), written (1), read by
    the server (1), given to the application (1), answered (1), picked up (1), written back (1) and read (1). *)
Definition session_work (s : rp) (cid : N) : nat :=
  match find (fun ap => pr_open (snd ap) && (pr_cid (snd ap) =? cid)) (rp_peers s) with
  | Some (_, p) => 3 * length (pr_pending p) + 2 * length (pr_egress p)
  | None => 0
  end.
Definition link_work (y : sys) (l : N) : nat :=
  match mget l (sy_links y) with
  | Some k => 6 * (length (en_sent (lk_c k)) - length (en_items (lk_s k))) + (length (en_sent (lk_s k)) - length (en_items (lk_c k)))
  | None => 0
  end.
Definition work_left (y : sys) (cid l : N) : nat :=
  8 * length (rd_cmds (sy_c y)) + 7 * length (rd_egress (sy_c y)) + 2 * length (rp_chan (sy_s y)) + length (rp_held (sy_s y)) +
  session_work (sy_s y) cid + link_work y l.
