(** GENERATED by tools/gen_props.py from Proofs/T_Iso2.v: statements only. *)

(** C84 at a reply socket: a client is served as if there were no others. *)
From Coq Require Import List NArith.
From Verif Require Import Model.Base Model.Map Model.Framed Model.WireReqRep Model.WireAuth Model.Compression Model.Handshake Model.ReqDriver Model.RepDriver Spec.RepSpec Spec.IsoRepSpec.
Import ListNotations.
Open Scope N_scope.
From Verif Require Import Proofs.T_Iso2.

(** C84 (reply socket), what holds: however many others there are and whatever they do, a client is served as if it were alone.  Take any two
    histories in which a client with the same address is served, in which the same things happen to the client's connection and the
    application gives the same answers to its first, second, ... request, in the same order; the rest - other clients connecting, flooding,
    reading nothing, leaving, the application answering them, and when it takes requests from the socket - may be completely different.
    Then everything observed about the client is the same: its requests as handed to the application, the results of respond(), the frames written to it, its end.
    (Exceptions, each refuted elsewhere: another client with the same address, and a full queue to the application.) *)
Theorem C84_reply_clients_independent_partial :
  forall max min auth co D a c1 c2 evs1 evs2 L1 L2,
  serves max min auth co D a c1 evs1 L1 -> serves max min auth co D a c2 evs2 L2 -> left_alone D a c1 L1 -> left_alone D a c2 L2 ->
  client_events a (requests_of c1 L1) evs1 = client_events a (requests_of c2 L2) evs2 ->
  client_view c1 (requests_of c1 L1) L1 = client_view c2 (requests_of c2 L2) L2 /\ handed_on c1 L1 = handed_on c2 L2.
Proof. exact C84_reply_clients_independent_partial_pf. Qed.
Print Assumptions C84_reply_clients_independent_partial.

(** A client alone, and the same client beside another one that has connected and sent requests before and breaks its connection meanwhile: the hypotheses hold, the histories differ, and the answer is the same. *)
Example C84_example_reply :
  exists D evs1 evs2 L1 L2,
  serves None 0 None None D 7 0 evs1 L1 /\ serves None 0 None None D 7 1 evs2 L2 /\ left_alone D 7 0 L1 /\ left_alone D 7 1 L2 /\
  client_events 7 (requests_of 0 L1) evs1 = client_events 7 (requests_of 1 L2) evs2 /\
  length evs1 = 5%nat /\ length evs2 = 11%nat /\ requests_of 0 L1 = [0] /\ requests_of 1 L2 = [2] /\ handed_on 0 L1 = [rr_new 3 x00 [x61]] /\ handed_on 1 L2 = [rr_new 3 x00 [x61]].
Proof. exact C84_example_reply_pf. Qed.

