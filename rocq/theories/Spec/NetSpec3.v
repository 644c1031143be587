(** Vocabulary for "nothing is stuck" (C76). *)
From Coq Require Import List NArith.
From Verif Require Import Model.Base Model.Map Model.WireReqRep Model.Framed Model.ReqDriver Model.RepDriver Model.Net Model.ReqRepNet Spec.ReqSpec Spec.RepSpec Spec.NetSpec.
Import ListNotations.
Open Scope N_scope.

(** Nothing is on its way to this end of a connection: no unread bytes in the stream, none in the read buffer, and the
    decoder is between two frames. *)
Definition end_drained (e : endp rr_state rr_msg) : Prop :=
  pp_todo (en_in e) = [] /\ fr_buf (en_fr e) = [] /\ fr_codec (en_fr e) = RRHeader.
(** The client's connection number [l] is in use at both ends, and nothing is on its way in either direction. *)
Definition drained (y : sys) (l : N) : Prop :=
  exists k, mget l (sy_links y) = Some k /\ en_on (lk_c k) = true /\ en_on (lk_s k) = true /\
            end_drained (lk_c k) /\ end_drained (lk_s k).
(** The client wrote frame [m] on its connection number [l]. *)
Definition written_on (y : sys) (l : N) (m : rr_msg) : Prop :=
  exists k, mget l (sy_links y) = Some k /\ In m (en_sent (lk_c k)).

(** The reply socket's connection [cid] is open and has nothing to write: no frame is queued, and none of the requests it
    waits for has been answered. *)
Definition session_idle (s : rp) (cid : N) : Prop :=
  exists addr p, mget addr (rp_peers s) = Some p /\ pr_cid p = cid /\ pr_open p = true /\ pr_egress p = [] /\
    forall rid id, In (rid, id) (pr_pending p) -> mget rid (rp_os s) = Some OsWait.
(** The request socket's driver has nothing to write: no request() call it has not looked at, no frame in its queue. *)
Definition client_idle (c : rd) : Prop := rd_cmds c = [] /\ rd_egress c = [].

(** Request [rid] is with the server application: it holds it, or it will get it from the socket's channel. *)
Definition with_application (s : rp) (rid : N) : Prop := In rid (rp_held s) \/ exists q, In q (rp_chan s) /\ q_rid q = rid.
(** The four things that can have become of a request that is not answered: it is with the application; the application
    discarded it (or the socket with it inside); it could not be given to the application (its payload does not decompress, or
    the socket is gone); the response to it could not be compressed. *)
Definition unanswered (y : sys) (cid rid : N) : Prop :=
  with_application (sy_s y) rid \/ In (RDiscarded rid) (sy_slog y) \/ In (RLost rid) (sy_slog y) \/ In (RUnsendable cid rid) (sy_slog y).
Definition has_result (y : sys) (c : N) : Prop := exists r, In (Resolve c r) (sy_clog y).
