(** Vocabulary for "no work waits for ever behind other work": turns, in words.  A turn is one iteration of a task's loop. *)
From Coq Require Import List NArith.
From Verif Require Import Model.Base Model.Map Model.WireReqRep Model.WirePubSub Model.ReqDriver Model.RepDriver Model.Compression Model.PubDriver Model.JoinMap Model.SubDriver
  Spec.ReqSpec Spec.RepSpec Spec.PubSpec Spec.SubSpec.
Import ListNotations.
Open Scope N_scope.

(** ** Request socket *)
(** The turns of the request socket's task in a history. *)
Definition iters (evs : list req_event) : list env := flat_map (fun ev => match ev with EIter e => [e] | _ => [] end) evs.

(** The connection stays up and the server sends a message at this turn. *)
Definition server_talks (e : env) : Prop := e_task e = None /\ exists m, e_next e = NxMsg m.
(** The turn at which tokio's cooperative budget is used up: reading, the channel of calls and the clock all answer "not now"; writing goes on. *)
Definition out_of_budget (e : env) : Prop := e_task e = None /\ e_next e = NxPending /\ e_recv e = false /\ e_ticks e = 0%nat /\ e_send e = true.

(** ** Reply socket *)
(** The requests (by number) received on connection [cid], in order. *)
Definition requests_on (cid : N) (l : list rout) : list N :=
  flat_map (fun x => match x with RIncoming c _ r _ => if eq_dec c cid then [r] else [] | _ => [] end) l.
(** How many turns the client with address [addr] gets. *)
Definition peer_turns (addr : N) (evs : list rp_event) : nat :=
  length (filter (fun ev => match ev with VPeer a _ => a =? addr | _ => false end) evs).
(** The connection of the client takes every frame it is given, and finished responses are looked at (the turns are not cut short by tokio's
    budget). *)
Definition takes_frames (addr : N) (evs : list rp_event) : Prop :=
  forall e, In (VPeer addr e) evs -> p_ready e = true /\ p_send e = true /\ p_pref e <> None.
(** It offers a request at every turn. *)
Definition offers_requests (addr : N) (evs : list rp_event) : Prop :=
  forall e, In (VPeer addr e) evs -> exists m, p_next e = NxMsg m.

(** ** Publisher *)
(** The subscriber offers a control frame at every turn of its session. *)
Definition offers_control (cid : N) (evs : list pb_event) : Prop :=
  forall e, In (WSession cid e) evs -> exists m, s_next e = PnMsg m.
(** Nothing is published, and the socket is not dropped. *)
Definition nothing_published (evs : list pb_event) : Prop :=
  forall ev, In ev evs -> match ev with WPublish _ _ | WTryPublish _ _ | WClose => False | _ => True end.

(** A connection is taken from the listener, refused, opened, or answered in its handshake. *)
Definition admits (x : rout) : Prop :=
  match x with RAccepted _ | RRefused | ROpen _ _ | RAuthed _ _ _ | RAuthReply _ _ => True | _ => False end.
(** Turns of the reply socket's task at which a new connection is waiting and the client with address 7 offers a request. *)
Definition wx_env : denv := mkDenv [] (fun _ => [rx_penv (NxMsg (rr_new 3 x00 [x41]))]) None (Some (0%nat, Some (Some 8))) true.

(** ** Subscriber *)
(** The publisher sends a message at every turn of the session. *)
Definition offers_messages (cid : N) (evs : list sb_event) : Prop :=
  forall e, In (YSess cid e) evs -> exists m, y_next e = PnMsg m.
(** The connection takes at least the first frame it is given at every turn of the session. *)
Definition sub_link_up (cid : N) (evs : list sb_event) : Prop :=
  forall e, In (YSess cid e) evs -> exists rest, y_sends e = SaOk :: rest.
(** Turns of the session at which the publisher has nothing to say. *)
Definition quiet_sess_turns (cid : N) (evs : list sb_event) : nat :=
  length (filter (fun ev => match ev with YSess c e => (c =? cid) && match y_next e with PnMsg _ | PnErr => false | _ => true end | _ => false end) evs).
(** [n] times: the session of connection [cid] reads a message; the subscriber's task makes one turn, which must not be its last. *)
Fixpoint busy_turns (token : option bytes) (ingress initial : N) (D : decompressors) (cid : N) (e : yenv) (d : ydenv) (n : nat) (s : sb) : option (sb * list uout) :=
  match n with
  | O => Some (s, [])
  | S n' =>
    let '(s1, o1, _) := sb_session cid e s in
    match sb_iter token ingress initial D d s1 with
    | (s2, o2, true) => match busy_turns token ingress initial D cid e d n' s2 with Some (s3, o3) => Some (s3, o1 ++ o2 ++ o3) | None => None end
    | (_, _, false) => None
    end
  end.
