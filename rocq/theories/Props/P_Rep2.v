(** GENERATED by tools/gen_props.py from Proofs/T_Rep2.v: statements only. *)

(** Reply socket: C83 (reply side). *)
From Coq Require Import List NArith.
From Verif Require Import Model.Base Model.Map Model.Stats Model.Framed Model.WireReqRep Model.WireAuth Model.Compression Model.Handshake Model.ReqDriver Model.RepDriver
  Spec.Wire Spec.Stream Spec.AuthCuts Spec.ReqSpec Spec.RepSpec.
Import ListNotations.
Open Scope N_scope.
From Verif Require Import Proofs.T_Rep2.

(** C83 (reply): in every history [L1] in which the application dropped the socket and every continuation [L2] of it: no request
    reaches the application any more, every request read from a client is thrown away, and every response queued for a
    client answers a request that the application had received before - and still held - when it dropped the socket. *)
Theorem C83_reply_after_drop :
  forall max min auth co D evs1 evs2 s1 s2 L1 L2,
  rp_run max min auth co D rp_init evs1 = (s1, L1) -> In RSocketDropped L1 ->
  rp_run max min auth co D s1 evs2 = (s2, L2) ->
  (forall q, ~ In (RYield q) L2 /\ ~ In (RReceived q) L2) /\
  (forall c a r m, In (RIncoming c a r m) L2 -> In (RLost r) L2) /\
  (forall c r m, In (RQueued c r m) L2 -> exists q, In (RReceived q) L1 /\ q_rid q = r).
Proof. exact C83_reply_after_drop_pf. Qed.
Print Assumptions C83_reply_after_drop.

(** C83 (reply), refuted for the service as a whole: the driver never notices that the socket was dropped.  It goes on accepting
    connections, serving them and reading their requests, none of which is ever answered: the client is not told.  No
    step of the driver's poll function ends the task (its loop is left only with `Pending`), whatever the environment does. *)
Theorem C83_reply_serves_on_refuted :
  (forall max s, fst (rp_accept max s) <> s \/ snd (rp_accept max s) = [RRefused]) /\
  (forall D, exists evs1 evs2 s1 s2 L1 L2, rp_run None 0 None None D rp_init evs1 = (s1, L1) /\ In RSocketDropped L1 /\
     rp_run None 0 None None D s1 evs2 = (s2, L2) /\
     In (RAccepted 1) L2 /\ In (ROpen 1 8) L2 /\ (exists r m, In (RIncoming 1 8 r m) L2 /\ In (RLost r) L2) /\ ended L2 = []).
Proof. exact C83_reply_serves_on_refuted_pf. Qed.
Print Assumptions C83_reply_serves_on_refuted.

(** A request received before the socket is dropped is answered after it. *)
Example C83_reply_example :
  let m := rr_new 5 x00 [x01] in let e n := mkPenv true true true (Some 0) n in
  forall D, let r := rp_run None 0 None None D rp_init [VAccept; VConn 0 (Some (Some 7)); VPeer 7 (e (NxMsg m)); VRecv; VPeer 7 (e (NxMsg m)); VDropSocket] in
  let q := rp_run None 0 None None D (fst r) [VRespond 0 [x09]; VPeer 7 (e NxPending); VPeer 7 (e (NxMsg m))] in
  In RSocketDropped (snd r) /\ In (RReceived (mkReq 7 0 [x01])) (snd r) /\
  snd q = [RResponded 0 [x09] true; RQueued 0 0 (rr_new 5 x00 [x09]); RHanded 0 (rr_new 5 x00 [x09]) true].
Proof. exact C83_reply_example_pf. Qed.

