(** Vocabulary for "an unfinished handshake does not hold a place for ever": what the silent side of a connection sends. *)
From Coq Require Import List NArith.
From Verif Require Import Model.Base Model.Map Model.Framed Model.WireAuth Model.Handshake Model.ReqDriver Model.RepDriver Model.PubDriver Model.JoinMap Model.SubDriver
  Spec.Wire Spec.Stream Spec.AuthSpec.
Import ListNotations.
Open Scope N_scope.

(** The client has sent nothing, or no more than the first three bytes of a handshake frame (which starts with 01), however they
    were cut; the connection stays open. *)
Definition client_stalls (input : list io) : Prop :=
  Forall delivery input /\ (length (received input) <= 3)%nat /\ (forall x, hd_error (received input) = Some x -> x = x01).
(** The server has sent no verdict: nothing, or one byte; the connection stays open. *)
Definition server_stalls (input : list io) : Prop :=
  Forall delivery input /\ server_says (received input) = NoVerdict.

(** Reply socket and publisher: whoever is in its handshake stalls. *)
Definition rep_stalled (evs : list rp_event) : Prop :=
  forall k input ok, In (VAuth k input ok) evs -> client_stalls input.
Definition pub_stalled (evs : list pb_event) : Prop :=
  forall k input ok, In (WAuth k input ok) evs -> client_stalls input.
(** Clients with the given addresses connect to a reply socket, one after the other; [n] subscribers connect to a publisher. *)
Definition rep_arrivals (addrs : list N) : list rp_event := flat_map (fun a => [VAccept; VConn 0 (Some (Some a))]) addrs.
Definition pub_arrivals (n : nat) : list pb_event := concat (repeat [WAccept; WConn 0 (Some true)] n).

(** Request socket: a connection attempt has been started and has not ended. *)
Definition attempt_open (l : list out) : bool :=
  fold_left (fun b x => match x with StartConnect => true | Connected | ConnectFailed => false | _ => b end) l false.
(** At every turn of the request socket's task the attempt stands where the transport has connected, the token was sent and the
    server stalls. *)
Definition req_stalled (token : bytes) (evs : list req_event) : Prop :=
  forall e, In (EIter e) evs -> exists input, server_stalls input /\ e_task e = req_task (Some token) (CpConn true input).
(** Subscriber: whenever a connection task is looked at, its publisher stalls in the handshake. *)
Definition sub_stalled (evs : list sb_event) : Prop :=
  forall k r order, In (YJoin k r order) evs -> exists input, r = JConn true input /\ server_stalls input.
