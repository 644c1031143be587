(** Vocabulary for "a request socket finds its way back" (C78). *)
From Coq Require Import List NArith.
From Verif Require Import Model.Base Model.Map Model.Backoff Model.Compression Model.WireReqRep Model.WireAuth Model.Framed Model.Handshake Model.ReqDriver Model.RepDriver Model.Net Model.ReqRepNet
  Spec.ReqSpec Spec.RepSpec Spec.NetSpec Spec.NetSpec3 Spec.NetSpec4.
Import ListNotations.
Open Scope N_scope.

(** The reply socket would let the client in: neither has to do with authentication, or the token is accepted; *)
Definition let_in (token : option bytes) (auth : option (bytes -> bool)) : Prop :=
  match token, auth with None, None => True | Some t, Some a => a t = true | _, _ => False end.
(** it is not full. *)
Definition has_room (max : option N) (s : rp) : Prop := match max with Some m => rp_active s < m | None => True end.

(** The request socket has no connection and can get one: its back-off [b] has at least one retry left; or an attempt is under
    way whose connection is not made yet (or is made, and there is no handshake to wait for). *)
Definition can_get_connection (token : option bytes) (y : sys) (b : backoff) : Prop :=
  rd_done (sy_c y) = false /\ rd_conn (sy_c y) = RInactive b /\
  (bo_count b + 1 < bo_max b \/ (rd_task (sy_c y) = true /\ (sy_task y = None \/ token = None))).
(** When the next attempt starts, at the latest: when the back-off's timer says so, or 20 ms from now. *)
Definition next_attempt (b : backoff) (now : N) : N :=
  N.max (now + 20000000) (match bo_timeout b with Some d => d | None => 0 end).

(** Events in which the client looks for a connection, gets a new one, and the reply socket accepts it, from address [addr].
    Nothing is asked, sent or answered. *)
Definition reconnecting (now late addr : N) (ev : yev) : Prop :=
  match ev with
  | YClient e _ _ _ => now <= e_now e <= late /\ e_ready e = false /\ e_recv e = false /\ e_ticks e = 0%nat
  | YConnected true | YAccept (Some _) | YAuth _ _ true => True
  | YConn _ r => r = Some (Some addr)
  | _ => False
  end.
Definition client_times (evs : list yev) : list N := flat_map (fun ev => match ev with YClient e _ _ _ => [e_now e] | _ => [] end) evs.
(** What happens at the client and at the server meanwhile: *)
Definition connecting (x : out) : Prop := match x with StartConnect | ConnectFailed | Connected => True | _ => False end.
Definition taking_in (cid addr : N) (x : rout) : Prop :=
  match x with
  | RAccepted c | RAuthReply c _ | RAuthed c _ _ => c = cid
  | ROpen c a => c = cid /\ a = addr
  | _ => False
  end.
(** Nothing else changed: the calls of the request socket are as they were; so are the requests, the applications' and the
    other connections of the reply socket; nothing was written. *)
Definition as_before (y y' : sys) (addr : N) : Prop :=
  rd_cmds (sy_c y') = rd_cmds (sy_c y) /\ rd_egress (sy_c y') = rd_egress (sy_c y) /\ rd_pending (sy_c y') = rd_pending (sy_c y) /\
  rp_chan (sy_s y') = rp_chan (sy_s y) /\ rp_held (sy_s y') = rp_held (sy_s y) /\ rp_os (sy_s y') = rp_os (sy_s y) /\
  (forall a, a <> addr -> mget a (rp_peers (sy_s y')) = mget a (rp_peers (sy_s y))) /\
  (forall l m, written_on y' l m <-> written_on y l m).
(** The steps it takes to answer all calls that have not been written and all requests at the server. *)
Definition work_waiting (y : sys) : nat :=
  8 * length (rd_cmds (sy_c y)) + 7 * length (rd_egress (sy_c y)) + 2 * length (rp_chan (sy_s y)) + length (rp_held (sy_s y)).
(** Frame [m] of the client is gone: it was written on a connection before, or one refused it. *)
Definition frame_gone (y : sys) (m : rr_msg) : Prop := In (Handed m false) (sy_clog y) \/ exists l, written_on y l m.
