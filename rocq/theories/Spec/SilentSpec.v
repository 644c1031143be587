(** Vocabulary for C97: a client that has connected over QUIC and says nothing. *)
From Coq Require Import List NArith.
From Verif Require Import Model.Base Model.RepDriver Model.PubDriver Model.QuicStream Model.QuicDriver.
Import ListNotations.
Open Scope N_scope.

(** The client has said something: it has written at least one byte, or ended its stream. *)
Definition spoke (o : list ql_out) : Prop := (exists n, 0 < n /\ In (LWrote n) o) \/ In LFinished o.
(** The client never writes and keeps its stream. *)
Definition silent (evs : list ql_event) : Prop := Forall (fun e => match e with LWrite _ | LFinish => False | _ => True end) evs.

(** No accept future of the reply socket / publisher completes, neither with a connection nor with an error. *)
Definition rep_none_completes (evs : list rp_event) : Prop := Forall (fun e => match e with VConn _ _ => False | _ => True end) evs.
Definition pub_none_completes (evs : list pb_event) : Prop := Forall (fun e => match e with WConn _ _ => False | _ => True end) evs.
(** Number of connections that arrive. *)
Definition rep_arriving (evs : list rp_event) : N := N.of_nat (length (filter (fun e => match e with VAccept => true | _ => false end) evs)).
Definition pub_arriving (evs : list pb_event) : N := N.of_nat (length (filter (fun e => match e with WAccept => true | _ => false end) evs)).
(** Number of connections admitted, and of those turned away. *)
Definition rep_admitted (o : list rout) : N := N.of_nat (length (filter (fun x => match x with RAccepted _ => true | _ => false end) o)).
Definition rep_refused (o : list rout) : N := N.of_nat (length (filter (fun x => match x with RRefused => true | _ => false end) o)).
Definition pub_admitted (o : list qout) : N := N.of_nat (length (filter (fun x => match x with QAccepted _ => true | _ => false end) o)).
Definition pub_refused (o : list qout) : N := N.of_nat (length (filter (fun x => match x with QRefused => true | _ => false end) o)).

(** Every client that connects stays connected and silent: the handshake does not fail, the connection is not lost, nothing is written. *)
Definition all_silent {Ev} (evs : list (qd_event Ev)) : Prop :=
  Forall (fun e => match e with DLink _ (LHandshake false) | DLink _ LLost | DLink _ (LWrite _) | DLink _ LFinish => False | _ => True end) evs.
Definition arriving {Ev} (evs : list (qd_event Ev)) : N := N.of_nat (length (filter (fun e => match e with DArrive => true | _ => false end) evs)).
