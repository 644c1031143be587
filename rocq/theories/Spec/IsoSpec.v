(** Vocabulary for C84: what concerns one connection of a publisher, and what does not. *)
From Coq Require Import List NArith Bool.
From Verif Require Import Model.Base Model.Map Model.PubDriver.
Import ListNotations.
Open Scope N_scope.

(** Which connection an observation is about, if it is about one. *)
Definition q_conn (x : qout) : option N :=
  match x with
  | QOpen c | QTook c _ | QSkipped c _ _ | QControl c _ _ | QHanded c _ _ | QAccepted c | QAuthed c _ _ | QAuthReply c _
  | QPanicked c | QCrashed c | QGone c => Some c
  | _ => None
  end.
(** Everything observed that is not about connection [d]. *)
Definition seen_by_others (d : N) (l : list qout) : list qout :=
  filter (fun x => match q_conn x with Some c => negb (c =? d) | None => true end) l.
(** The history without the turns of the session of connection [d] (and so without anything its subscriber did). *)
Definition apart_from (d : N) (evs : list pb_event) : list pb_event :=
  filter (fun ev => match ev with WSession c _ => negb (c =? d) | _ => true end) evs.

(** ** Subscriber *)
From Verif Require Import Model.JoinMap Model.SubDriver.
(** Which connection an observation of a subscriber is about, if it is about one. *)
Definition u_conn (x : uout) : option N :=
  match x with
  | UOpen c _ | UTry c _ _ | UGot c _ | UBusy c | UWire c _ _ | URecv c _ _ _ | URecvErr c | UUndecodable c _ | UDeliver c _ _ _ _
  | UYield c _ _ _ | UClosed c _ | UEnd c | UCrash c => Some c
  | _ => None
  end.
(** Everything observed that is not about connection [d]; not when the application takes its messages. *)
Definition others_see (d : N) (l : list uout) : list uout :=
  filter (fun x => match x with UYield _ _ _ _ => false | _ => match u_conn x with Some c => negb (c =? d) | None => true end end) l.
(** The history without the turns of the session of connection [d] (and so without anything its publisher did), and without the
    application's taking of messages. *)
Definition sub_apart_from (d : N) (evs : list sb_event) : list sb_event :=
  filter (fun ev => match ev with YSess c _ => negb (c =? d) | YTake => false | _ => true end) evs.
(** The queue to the application was full when a message came. *)
Definition overflowed (l : list uout) : Prop := exists c m a p, In (UDeliver c m a p TFull) l.
(** The messages of connection [c] queued for the application, in order: (source, topic, payload). *)
Definition for_app (c : N) (l : list uout) : list (addr * bytes * bytes) :=
  flat_map (fun x => match x with UDeliver k m a p TSent => if k =? c then [(a, tm_topic m, p)] else [] | _ => [] end) l.
