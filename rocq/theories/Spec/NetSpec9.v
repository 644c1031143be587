(** Vocabulary for "a subscriber finds its way back" (C86). *)
From Coq Require Import List NArith Permutation.
From Verif Require Import Model.Base Model.Map Model.Backoff Model.Compression Model.WirePubSub Model.WireAuth Model.Framed Model.Handshake Model.JoinMap Model.Trie Model.PubDriver Model.SubDriver Model.Net Model.PubSubNet
  Spec.PubSpec Spec.SubSpec Spec.NetSpec2 Spec.NetSpec6.
Import ListNotations.
Open Scope N_scope.

(** The publisher would let the subscriber in: neither has to do with authentication, or the token is accepted; *)
Definition sub_let_in (token : option bytes) (auth : option (bytes -> bool)) : Prop :=
  match token, auth with None, None => True | Some t, Some a => a t = true | _, _ => False end.
(** it is not full. *)
Definition pub_has_room (max : option N) (s : pb) : Prop := match max with Some m => pb_active s < m | None => True end.

(** The subscriber wants a connection to address [a], has none and can get one: an attempt is under way whose connection is not
    made yet; or there is none (or one in the middle of its handshake, which may still fail) and the back-off [b] has a retry left (and
    doubling it does not overflow).  No attempt has panicked. *)
Definition can_come_back (token : option bytes) (z : zsys) (a : addr) (b : backoff) : Prop :=
  mget a (sb_pubs (z_c z)) = Some (PInactive b) /\ ~ In (UTaskPanic a) (z_clog z) /\
  ((In a (jm_tasks (sb_tasks (z_c z))) /\ mget a (z_tasks z) = None) \/
   ((~ In a (jm_tasks (sb_tasks (z_c z))) \/ token <> None) /\ bo_count b + 1 < bo_max b /\ bo_cur b * 2 <= DURATION_MAX)).
(** When the next attempt starts, at the latest: when the back-off's timer says so. *)
Definition next_dial (b : backoff) (now : N) : N :=
  N.max now (match bo_timeout b with Some d => d | None => now + bo_cur b end).

(** Events in which the subscriber looks for a connection to [a], gets a new one, and the publisher accepts it.  [order]: the
    order in which the driver goes through its topics. *)
Definition coming_back (a : addr) (now late : N) (order : list bytes) (ev : zev) : Prop :=
  match ev with
  | ZEntry a' t => a' = a /\ now <= t <= late
  | ZConnected a' true => a' = a
  | ZAccept (Some _) | ZConn _ (Some true) | ZAuth _ _ true => True
  | ZJoin _ (JConn _ _) o => o = order
  | _ => False
  end.
Definition dial_times (evs : list zev) : list N := flat_map (fun ev => match ev with ZEntry _ t => [t] | _ => [] end) evs.
(** What happens at the subscriber and at the publisher meanwhile: *)
Definition dialling (a : addr) (c : N) (x : uout) : Prop :=
  match x with
  | UConnect a' | UConnectFailed a' => a' = a
  | UOpen c' a' => c' = c /\ a' = a
  | UTry c' (SSub _) r => c' = c /\ r <> TClosed
  | _ => False
  end.
Definition letting_in (d : N) (x : qout) : Prop :=
  match x with
  | QAccepted d' | QAuthReply d' _ | QAuthed d' _ _ | QOpen d' => d' = d
  | _ => False
  end.

(** Connection [c] = [d] is new, between [z] and [z'].  The session [c] is told (the first 64 of) the topics, in the order [ts]; the
    publisher's session starts with the messages published from now on.  Nothing else changed. *)
Record back_again (a : addr) (c d : N) (ts : list bytes) (z z' : zsys) : Prop := mkBack {
  bk_new_c : mget c (sb_conns (z_c z)) = None; bk_new_d : mget d (pb_sess (z_s z)) = None;
  bk_topics : Permutation ts (sb_topics (z_c z));
  bk_sub : exists x, mget c (sb_conns (z_c z')) = Some x /\ sc_addr x = a /\ sc_cmds x = map SSub (firstn 64 ts) /\ sc_in x = [] /\ sc_egress x = [];
  bk_pub : mget d (pb_sess (z_s z')) = Some (sess_new (blen (pb_hist (z_s z))));
  bk_kept : sb_topics (z_c z') = sb_topics (z_c z) /\ sb_cmdq (z_c z') = sb_cmdq (z_c z) /\ sb_out (z_c z') = sb_out (z_c z) /\ pb_hist (z_s z') = pb_hist (z_s z);
  bk_pubs : forall a', a' <> a -> mget a' (sb_pubs (z_c z')) = mget a' (sb_pubs (z_c z));
  bk_conns : forall c', c' <> c -> mget c' (sb_conns (z_c z')) = mget c' (sb_conns (z_c z));
  bk_sess : forall d', d' <> d -> mget d' (pb_sess (z_s z')) = mget d' (pb_sess (z_s z));
  bk_link : exists l k, mget c (z_ccids z') = Some l /\ mget l (z_links z) = None /\ mget l (z_links z') = Some k /\ en_sent (lk_c k) = [] /\ en_sent (lk_s k) = [];
  bk_links : forall c' l, c' <> c -> mget c' (z_ccids z) = Some l -> mget c' (z_ccids z') = Some l /\ mget l (z_links z') = mget l (z_links z) }.
