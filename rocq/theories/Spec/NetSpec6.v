(** Vocabulary for "there is always a way on", publish/subscribe (C79, C80). *)
From Coq Require Import List NArith.
From Verif Require Import Model.Base Model.Map Model.Framed Model.WirePubSub Model.Compression Model.Trie Model.PubDriver Model.SubDriver Model.Net Model.PubSubNet
  Spec.PubSpec Spec.SubSpec Spec.NetSpec2.
Import ListNotations.
Open Scope N_scope.

(** What the applications and the clock may do for the frames to fit the wire format: topics of published messages are
    shorter than 64 KiB, topics of subscriptions at least 10 bytes shorter (longer ones make the session panic, C45), payloads
    are shorter than 4 GiB, as they are and compressed; times are 64-bit numbers. *)
Definition payload_fits (co : option compressor) (p : bytes) : Prop :=
  blen p < 2 ^ 32 /\ forall cm z, co = Some cm -> cmp_fun cm p = Some z -> blen z < 2 ^ 32.
Definition input_fits (co : option compressor) (ev : zev) : Prop :=
  match ev with
  | ZPub _ e _ => s_now e < 2 ^ 64
  | ZSub _ e _ => y_now e < 2 ^ 64
  | ZPublish t p | ZTryPublish t p => blen t < 2 ^ 16 /\ payload_fits co p
  | ZApi (ApSub _ t) | ZApi (ApUnsub _ t) => blen t + 10 < 2 ^ 16
  | _ => True
  end.

(** Neither end of the connection has met an error or the end of the stream. *)
Definition unbroken (k : plink) : Prop :=
  fr_errored (en_fr (lk_c k)) = false /\ fr_eof (en_fr (lk_c k)) = false /\
  fr_errored (en_fr (lk_s k)) = false /\ fr_eof (en_fr (lk_s k)) = false.
(** Both sockets exist; connection [c] of the subscriber is in use there and is connection [d] of the publisher, which has a
    session for it. *)
Definition in_touch (z : zsys) (c d : N) : Prop :=
  sb_dropped (z_c z) = false /\ pb_closed (z_s z) = false /\
  (exists x, mget c (sb_conns (z_c z)) = Some x /\ sc_alive x = true /\ mget (sc_addr x) (sb_pubs (z_c z)) = Some (PActive c)) /\
  (exists y, mget d (pb_sess (z_s z)) = Some y) /\
  (exists l k, mget c (z_ccids z) = Some l /\ mget d (z_scids z) = Some l /\ mget l (z_links z) = Some k /\ unbroken k).

(** Nothing is left to do: the application has taken everything; no command, frame or message waits in the subscriber's
    session; the publisher's session has looked at every message and has nothing to write; nothing is on its way. *)
Definition all_done (z : zsys) (c d : N) : Prop :=
  sb_out (z_c z) = [] /\
  (exists x, mget c (sb_conns (z_c z)) = Some x /\ sc_in x = [] /\ sc_cmds x = [] /\ sc_egress x = []) /\
  (exists y, mget d (pb_sess (z_s z)) = Some y /\ sn_pending y = None /\ sn_pos y = blen (pb_hist (z_s z))) /\
  (exists l k, mget c (z_ccids z) = Some l /\ mget d (z_scids z) = Some l /\ mget l (z_links z) = Some k /\
     (pp_todo (en_in (lk_c k)) = [] /\ fr_codec (en_fr (lk_c k)) = PSHeader /\ fr_buf (en_fr (lk_c k)) = []) /\
     (pp_todo (en_in (lk_s k)) = [] /\ fr_codec (en_fr (lk_s k)) = PSHeader /\ fr_buf (en_fr (lk_s k)) = [])).

(** Events in which everybody does his job: the application takes a message; the subscriber's driver looks after a publisher;
    the session of [c], and that of [d], at time [now], with a transport that takes frames and delivers data.  No calls, no
    failures, no connections coming or going. *)
Definition data_only (i : list io) : Prop := forall x, In x i -> exists b t, x = IoData (b :: t).
Definition helpful (now c d : N) (ev : zev) : Prop :=
  match ev with
  | ZTake | ZEntry _ _ => True
  | ZSub cid e i => cid = c /\ y_now e = now /\ y_flush e = true /\ (forall a, In a (y_sends e) -> a = SaOk) /\ data_only i
  | ZPub cid e i => cid = d /\ s_now e = now /\ s_tick e = true /\ s_flush_ok e = true /\ s_ready e = true /\ s_send e = true /\ data_only i
  | _ => False
  end.
(** What happens meanwhile.  At the subscriber: session [c] takes commands, its connection takes frames, messages received on
    it are queued, none is refused; the application gets messages. *)
Definition fine_sub (c : N) (x : uout) : Prop :=
  match x with
  | UGot k _ | UWire k _ true | URecv k _ _ TSent | UDeliver k _ _ _ TSent => k = c
  | UYield _ _ _ _ => True
  | _ => False
  end.
(** At the publisher: session [d] looks at messages (or finds that it has lagged behind), writes them, and receives frames. *)
Definition fine_pub (d : N) (x : qout) : Prop :=
  match x with
  | QTook k _ | QSkipped k _ _ | QHanded k _ true | QControl k _ _ => k = d
  | _ => False
  end.

(** How much is left to do, in steps.  A published message not looked at yet: look at it (1), write it (1), read it (1), pass
    it on to the socket (1), take it (1).  A command for the session: take it (1), write it (1), read it (1). *)
Definition sub_work (z : zsys) (c : N) : nat :=
  match mget c (sb_conns (z_c z)) with
  | Some x => 2 * length (sc_in x) + 3 * length (sc_cmds x) + 2 * length (sc_egress x)
  | None => 0
  end.
Definition pub_work (z : zsys) (d : N) : nat :=
  match mget d (pb_sess (z_s z)) with
  | Some y => 5 * (length (pb_hist (z_s z)) - N.to_nat (sn_pos y)) + match sn_pending y with Some _ => 4 | None => 0 end
  | None => 0
  end.
Definition wire_work (z : zsys) (c : N) : nat :=
  match mget c (z_ccids z) with
  | Some l =>
    match mget l (z_links z) with
    | Some k => 3 * (length (en_sent (lk_s k)) - length (en_items (lk_c k))) + (length (en_sent (lk_c k)) - length (en_items (lk_s k)))
    | None => 0
    end
  | None => 0
  end.
Definition work_to_do (z : zsys) (c d : N) : nat := length (sb_out (z_c z)) + sub_work z c + pub_work z d + wire_work z c.

(** The first message the session of connection [d] has not looked at and still can ([buf]: session_buffer_size). *)
Definition first_unread (buf : N) (z : zsys) (d : N) : N :=
  match mget d (pb_sess (z_s z)) with
  | Some y => if sn_pos y + bcast_cap buf <? blen (pb_hist (z_s z)) then blen (pb_hist (z_s z)) - bcast_cap buf else sn_pos y
  | None => blen (pb_hist (z_s z))
  end.

(** What stays as it is meanwhile: who is connected to whom; the publishers, topics and calls in the queue of the subscriber;
    what was published; all other sessions. *)
Record near (c d : N) (z z' : zsys) : Prop := mkNear {
  nr_cc : z_ccids z' = z_ccids z; nr_sc : z_scids z' = z_scids z;
  nr_drop : sb_dropped (z_c z') = sb_dropped (z_c z); nr_pubs : sb_pubs (z_c z') = sb_pubs (z_c z);
  nr_topics : sb_topics (z_c z') = sb_topics (z_c z); nr_cmdq : sb_cmdq (z_c z') = sb_cmdq (z_c z);
  nr_closed : pb_closed (z_s z') = pb_closed (z_s z); nr_hist : pb_hist (z_s z') = pb_hist (z_s z);
  nr_conns : forall c', c' <> c -> mget c' (sb_conns (z_c z')) = mget c' (sb_conns (z_c z));
  nr_sess : forall d', d' <> d -> mget d' (pb_sess (z_s z')) = mget d' (pb_sess (z_s z));
  nr_clog : exists o, z_clog z' = z_clog z ++ o /\ Forall (fine_sub c) o;
  nr_slog : exists o, z_slog z' = z_slog z ++ o /\ Forall (fine_pub d) o }.

(** The application publishes these messages (topic, payload), one after another. *)
Definition zpubs (msgs : list (bytes * bytes)) : list zev := map (fun q => ZPublish (fst q) (snd q)) msgs.
