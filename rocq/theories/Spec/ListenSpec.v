(** What a failed accept may change (C93).  The connections are numbered in the order in which they were admitted, so an additional one
    shifts the numbers of the later ones; nothing else may change. *)
From Verif Require Import Model.Base Model.Map Model.RepDriver Model.PubDriver.

(** The number of a connection in the history with one more admission: the [n]-th is the additional one. *)
Definition later (n c : N) : N := if c <? n then c else c + 1.

(** The same observation with the connections renumbered. *)
Definition rep_later (n : N) (x : rout) : rout :=
  match x with
  | RIncoming c a r m => RIncoming (later n c) a r m
  | RQueued c r m => RQueued (later n c) r m
  | RUnsendable c r => RUnsendable (later n c) r
  | RHanded c m ok => RHanded (later n c) m ok
  | RAccepted c => RAccepted (later n c)
  | RAuthed c i t => RAuthed (later n c) i t
  | RAuthReply c f => RAuthReply (later n c) f
  | ROpen c a => ROpen (later n c) a
  | RReplaced c => RReplaced (later n c)
  | RPanicked c => RPanicked (later n c)
  | RGone c => RGone (later n c)
  | x => x
  end.
Definition pub_later (n : N) (x : qout) : qout :=
  match x with
  | QOpen c => QOpen (later n c)
  | QTook c i => QTook (later n c) i
  | QSkipped c i j => QSkipped (later n c) i j
  | QControl c m o => QControl (later n c) m o
  | QHanded c m ok => QHanded (later n c) m ok
  | QAccepted c => QAccepted (later n c)
  | QAuthed c i t => QAuthed (later n c) i t
  | QAuthReply c f => QAuthReply (later n c) f
  | QPanicked c => QPanicked (later n c)
  | QCrashed c => QCrashed (later n c)
  | QGone c => QGone (later n c)
  | x => x
  end.
(** The same step of the publisher. *)
Definition pub_step (n : N) (ev : pb_event) : pb_event := match ev with WSession c e => WSession (later n c) e | ev => ev end.

(** Steps that have nothing to do with the listener. *)
Definition rep_serving (ev : rp_event) : Prop := match ev with VAccept | VConn _ _ => False | _ => True end.
Definition pub_serving (ev : pb_event) : Prop := match ev with WAccept | WConn _ _ => False | _ => True end.

(** How many connections were admitted. *)
Definition rep_admissions (l : list rout) : N := blen (filter (fun x => match x with RAccepted _ => true | _ => false end) l).
Definition pub_admissions (l : list qout) : N := blen (filter (fun x => match x with QAccepted _ => true | _ => false end) l).
