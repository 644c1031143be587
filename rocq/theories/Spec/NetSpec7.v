(** Vocabulary for "under every fair schedule, everything is answered" (C81). *)
From Coq Require Import List NArith.
From Verif Require Import Model.Base Model.Map Model.Compression Model.WireReqRep Model.Framed Model.ReqDriver Model.RepDriver Model.Net Model.ReqRepNet
  Spec.ReqSpec Spec.RepSpec Spec.NetSpec Spec.NetSpec3 Spec.NetSpec4.
Import ListNotations.
Open Scope N_scope.

(** A schedule says what happens next, for ever.  The first [n] events of it, after [evs]: *)
Definition then_follow (evs : list yev) (sched : nat -> yev) (n : nat) : list yev := evs ++ map sched (seq 0 n).

(** Event [ev], in state [y], is somebody doing his job: an iteration of the client's driver, at any time, in which a frame
    offered to the transport is taken, no timeouts are checked and the driver does not see its socket closed, and which reads any
    number of pieces of data of any size, or nothing; an iteration of the reply socket's connection [cid], likewise (whether the
    transport is ready, which of several responses is picked first, if any, and whether anything is flushed does not matter); the server
    application asks for a request, or responds, as [f] says, to one it got. *)
Definition does_job (f : bytes -> bytes) (cid : N) (y : sys) (ev : yev) : Prop :=
  match ev with
  | YClient e _ _ nio => e_send e = true /\ e_ticks e = 0%nat /\ e_close e = false /\ data_only nio
  | YPeer addr e i => p_send e = true /\ data_only i /\ exists p, mget addr (rp_peers (sy_s y)) = Some p /\ pr_cid p = cid /\ pr_open p = true
  | YRecv => True
  | YRespond rid x => exists src q, In (RReceived (mkReq src rid q)) (sy_slog y) /\ x = f q
  | _ => False
  end.
(** A real turn of the client, of the server: the transport is ready, finished responses are looked at, and if there are bytes to read on connection [l], some of
    them are delivered. *)
Definition delivers (i : list io) (p : pipe) : Prop := pipe_offers i p = true /\ (i = [] -> pp_todo p = []).
Definition client_turn (l : N) (y : sys) (ev : yev) : Prop :=
  match ev with
  | YClient e _ _ nio => e_ready e = true /\ e_recv e = true /\ exists k, mget l (sy_links y) = Some k /\ delivers nio (en_in (lk_c k))
  | _ => False
  end.
Definition server_turn (l : N) (y : sys) (ev : yev) : Prop :=
  match ev with
  | YPeer _ e i => p_ready e = true /\ p_pref e <> None /\ exists k, mget l (sy_links y) = Some k /\ delivers i (en_in (lk_s k))
  | _ => False
  end.
(** A fair schedule ([at_ n]: the state after [n] of its events): everybody only does his job; again and again the client and the
    server get a real turn and the application asks for a request; and it responds to every request it has, some time. *)
Definition fair (f : bytes -> bytes) (cid l : N) (at_ : nat -> sys) (sched : nat -> yev) : Prop :=
  (forall n, does_job f cid (at_ n) (sched n)) /\
  (forall n, exists m, (n <= m)%nat /\ client_turn l (at_ m) (sched m)) /\
  (forall n, exists m, (n <= m)%nat /\ server_turn l (at_ m) (sched m)) /\
  (forall n, exists m, (n <= m)%nat /\ sched m = YRecv) /\
  (forall n rid, In rid (rp_held (sy_s (at_ n))) -> exists m x, (n <= m)%nat /\ sched m = YRespond rid x).

(** The requests that are in the application's queue or may still get there by connection [l] fit into the queue, which holds
    1024 (a request that finds it full is lost). *)
Definition queue_suffices (y : sys) (l : N) : Prop :=
  exists k, mget l (sy_links y) = Some k /\
  (length (rp_chan (sy_s y)) + length (rd_cmds (sy_c y)) + length (rd_egress (sy_c y)) +
    (length (en_sent (lk_c k)) - length (en_items (lk_s k))) <= 1024)%nat.
