(** Vocabulary for the publisher properties: functions of the log of effects only. *)
From Coq Require Import List NArith.
From Verif Require Import Model.Base Model.Map Model.WirePubSub Model.Compression Model.Framed Model.WireAuth Model.Trie Model.PubDriver.
Import ListNotations.
Open Scope N_scope.

(** The messages published, in order; message number [i] is the [i]-th (from 0). *)
Definition published (l : list qout) : list pmsg := flat_map (fun x => match x with QPublished m => [m] | _ => [] end) l.

(** Connections admitted, in order; those that came to an end; those whose slot is not given back. *)
Definition sub_admitted (l : list qout) : list N := flat_map (fun x => match x with QAccepted c => [c] | _ => [] end) l.
Definition sub_ended (l : list qout) : list N :=
  flat_map (fun x => match x with QGone c | QPanicked c | QCrashed c => [c] | _ => [] end) l.
Definition sub_leaked (l : list qout) : list N := flat_map (fun x => match x with QPanicked c => [c] | _ => [] end) l.
(** Connections being established or live. *)
Definition sub_live (l : list qout) : list N := filter (fun c => negb (smem c (sub_ended l))) (sub_admitted l).

(** Frames given to connection [cid], in order; frames some connection took (for the byte counter). *)
Definition sent_to (cid : N) (l : list qout) : list ps_msg :=
  flat_map (fun x => match x with QHanded c m _ => if eq_dec c cid then [m] else [] | _ => [] end) l.
Definition sent_frames (l : list qout) : list ps_msg := flat_map (fun x => match x with QHanded _ m true => [m] | _ => [] end) l.

(** The subscribe/unsubscribe operations carried out for connection [cid], in order. *)
Definition ops_of (cid : N) (l : list qout) : list tr_op :=
  flat_map (fun x => match x with QControl c _ (Some o) => if eq_dec c cid then [o] else [] | _ => [] end) l.

(** Frame [m] carries the published message [p]. *)
Definition carries (p : pmsg) (m : ps_msg) : Prop :=
  ps_topic m = pm_topic p /\ ps_ctype m = ctype_byte (om_ctype (pm_body p)) /\ ps_payload m = om_payload (pm_body p).
(** Message number [i] in the log, if published. *)
Definition message (l : list qout) (i : N) : option pmsg := nth_error (published l) (N.to_nat i).

(** The session of connection [cid] read message number [i] at a moment when the filter that results from the operations
    received before on this connection contained the message's topic. *)
Definition due (cid : N) (l : list qout) (i : N) : Prop :=
  exists before after p, l = before ++ QTook cid i :: after /\ message l i = Some p /\
    trie_contains (trie_run (ops_of cid before)) (pm_topic p) = true.

(** Message number [i] is the one waiting to be written in the session of connection [cid]. *)
Definition about_to_be_sent (s : pb) (l : list qout) (cid i : N) : Prop :=
  exists x m p, mget cid (pb_sess s) = Some x /\ sn_pending x = Some m /\ message l i = Some p /\ carries p m.

(** [x] is an effect of or on connection [c]. *)
Definition sub_acts_on (c : N) (x : qout) : Prop :=
  match x with
  | QAccepted c' | QAuthed c' _ _ | QAuthReply c' _ | QOpen c' | QTook c' _ | QSkipped c' _ _ | QControl c' _ _ | QHanded c' _ _ => c' = c
  | _ => False
  end.

(** The connection delivers a frame. *)
Definition is_frame (n : ps_next) : bool := match n with PnMsg _ => true | _ => false end.
(** Work waiting in the session of connection [cid]: two steps for each unread message and one for a frame to be written. *)
Definition sess_work (cid : N) (s : pb) : nat :=
  match mget cid (pb_sess s) with
  | Some x => 2 * N.to_nat (blen (pb_hist s) - sn_pos x) + match sn_pending x with Some _ => 1 | None => 0 end
  | None => 0
  end.

(** How often the session of connection [cid] was polled while the connection could take a frame. *)
Definition ready_polls (cid : N) (evs : list pb_event) : nat :=
  length (filter (fun ev => match ev with WSession c e => (c =? cid) && s_ready e | _ => false end) evs).

(** A concrete history: subscriber 0 connects and subscribes to "a"; "a" is published twice, "b" once between. *)
Definition px_env (n : ps_next) : senv := mkSenv true true true true 5 n.
Definition px_sub (t : bytes) : ps_next :=
  match ps_new_sub 1 t with Some m => PnMsg m | None => PnPending end.
Definition px_unsub (t : bytes) : ps_next :=
  match ps_new_unsub 1 t with Some m => PnMsg m | None => PnPending end.
Definition px_idle (n : nat) (cid : N) : list pb_event := repeat (WSession cid (px_env PnPending)) n.
Definition px_hist : list pb_event :=
  [WAccept; WConn 0 (Some true); WSession 0 (px_env (px_sub [x61])); WPublish [x61] [x01]; WPublish [x62] [x02]; WTryPublish [x61] [x03]]
  ++ px_idle 6 0.
