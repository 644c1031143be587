(** Vocabulary for "under every fair schedule, every message arrives" (C82). *)
From Coq Require Import List NArith.
From Verif Require Import Model.Base Model.Map Model.Framed Model.WirePubSub Model.Compression Model.Trie Model.PubDriver Model.SubDriver Model.Net Model.PubSubNet
  Spec.PubSpec Spec.SubSpec Spec.NetSpec2 Spec.NetSpec6.
Import ListNotations.
Open Scope N_scope.

(** A schedule says what happens next, for ever.  The first [n] events of it, after [evs]: *)
Definition then_goes_on (evs : list zev) (sched : nat -> zev) (n : nat) : list zev := evs ++ map sched (seq 0 n).

(** Event [ev], in state [z], is somebody doing his part: the application asks for a message; the subscriber's driver looks after
    the publisher at the other end of connection [c]; an iteration of the session of [c], at any time, in which the transport
    takes any number of frames, perhaps none, and fails for none, and which reads any number of pieces of data of any size, or
    nothing; an iteration of the publisher's session [d], likewise (whether the transport is ready and whether anything is
    flushed does not matter). *)
Definition does_part (c d : N) (z : zsys) (ev : zev) : Prop :=
  match ev with
  | ZTake => True
  | ZEntry a _ => exists x, mget c (sb_conns (z_c z)) = Some x /\ sc_addr x = a
  | ZSub cid e i => cid = c /\ y_now e < 2 ^ 64 /\ (forall a, In a (y_sends e) -> a = SaOk) /\ data_only i
  | ZPub cid e i => cid = d /\ s_now e < 2 ^ 64 /\ s_send e = true /\ data_only i
  | _ => False
  end.
(** A real turn of the driver, the subscriber's session, the publisher's session: the transport is ready for a frame, and if there
    are bytes to read, some of them are delivered. *)
Definition some_delivered (i : list io) (p : pipe) : Prop := pipe_offers i p = true /\ (i = [] -> pp_todo p = []).
Definition driver_turn (ev : zev) : Prop := match ev with ZEntry _ _ => True | _ => False end.
Definition sub_turn (c : N) (z : zsys) (ev : zev) : Prop :=
  match ev with
  | ZSub _ e i => y_sends e <> [] /\ exists l k, mget c (z_ccids z) = Some l /\ mget l (z_links z) = Some k /\ some_delivered i (en_in (lk_c k))
  | _ => False
  end.
Definition pub_turn (d : N) (z : zsys) (ev : zev) : Prop :=
  match ev with
  | ZPub _ e i => s_ready e = true /\ exists l k, mget d (z_scids z) = Some l /\ mget l (z_links z) = Some k /\ some_delivered i (en_in (lk_s k))
  | _ => False
  end.
(** A fair schedule ([at_ n]: the state after [n] of its events): everybody only does his part, and each of them gets a real turn
    again and again. *)
Definition fair_pubsub (c d : N) (at_ : nat -> zsys) (sched : nat -> zev) : Prop :=
  (forall n, does_part c d (at_ n) (sched n)) /\
  (forall n, exists m, (n <= m)%nat /\ sched m = ZTake) /\
  (forall n, exists m, (n <= m)%nat /\ driver_turn (sched m)) /\
  (forall n, exists m, (n <= m)%nat /\ sub_turn c (at_ m) (sched m)) /\
  (forall n, exists m, (n <= m)%nat /\ pub_turn d (at_ m) (sched m)).

(** The messages that are on their way to the application by this connection, or that the publisher's session may still look at,
    fit into the queue between session and driver, which holds 1024, and, with those that wait for the application, into its
    ingress buffer (a message that finds one of them full is lost). *)
Definition still_to_come (buf : N) (z : zsys) (c d : N) : nat :=
  (N.to_nat (blen (pb_hist (z_s z)) - first_unread buf z d) +
  match mget d (pb_sess (z_s z)) with Some y => match sn_pending y with Some _ => 1 | None => 0 end | None => 0 end +
  match mget c (z_ccids z) with
  | Some l => match mget l (z_links z) with Some k => length (en_sent (lk_s k)) - length (en_items (lk_c k)) | None => 0 end
  | None => 0
  end +
  match mget c (sb_conns (z_c z)) with Some x => length (sc_in x) | None => 0 end)%nat.
Definition buffers_suffice (ingress buf : N) (z : zsys) (c d : N) : Prop :=
  (still_to_come buf z c d <= 1024)%nat /\ (length (sb_out (z_c z)) + still_to_come buf z c d <= N.to_nat ingress)%nat.

(** What happens meanwhile at the subscriber: as in [fine_sub], and the transport may not be ready. *)
Definition fine_sub_busy (c : N) (x : uout) : Prop := fine_sub c x \/ x = UBusy c.
(** What stays as it is meanwhile: who is connected to whom; the publishers, topics and calls in the queue of the subscriber;
    what was published; all other sessions. *)
Record kept (c d : N) (z z' : zsys) : Prop := mkKept {
  kp_cc : z_ccids z' = z_ccids z; kp_sc : z_scids z' = z_scids z;
  kp_drop : sb_dropped (z_c z') = sb_dropped (z_c z); kp_pubs : sb_pubs (z_c z') = sb_pubs (z_c z);
  kp_topics : sb_topics (z_c z') = sb_topics (z_c z); kp_cmdq : sb_cmdq (z_c z') = sb_cmdq (z_c z);
  kp_closed : pb_closed (z_s z') = pb_closed (z_s z); kp_hist : pb_hist (z_s z') = pb_hist (z_s z);
  kp_conns : forall c', c' <> c -> mget c' (sb_conns (z_c z')) = mget c' (sb_conns (z_c z));
  kp_sess : forall d', d' <> d -> mget d' (pb_sess (z_s z')) = mget d' (pb_sess (z_s z));
  kp_clog : exists o, z_clog z' = z_clog z ++ o /\ Forall (fine_sub_busy c) o;
  kp_slog : exists o, z_slog z' = z_slog z ++ o /\ Forall (fine_pub d) o }.
