(** GENERATED by tools/gen_props.py from Proofs/T_Auth.v: statements only. *)

(** The handshake: C49 (client needs an acknowledgement), C55 (nothing is lost in the switch of codecs). *)
From Coq Require Import List NArith.
From Verif Require Import Model.Base Model.Map Model.Framed Model.WireAuth Model.Handshake Model.Compression Model.Backoff Model.JoinMap Model.WirePubSub Model.PubDriver Model.ReqDriver Model.SubDriver
  Spec.Wire Spec.Stream Spec.AuthCuts Spec.AuthSpec Spec.ReqSpec Spec.SubSpec.
Import ListNotations.
Open Scope N_scope.
From Verif Require Import Proofs.T_Auth.

(** C49 (the client's handshake): whatever the server sends, in whatever pieces, and however its stream ends: the client sends its auth frame and then goes on with the connection iff
    the first two bytes it gets are an acknowledgement; it gives up on anything else and at the end of the stream; as long as there is no verdict it waits.  It never panics. *)
Theorem C49_client_needs_acknowledgement :
  forall token input e more, Forall delivery input -> (e = StillOpen -> more = []) ->
  exists frame rest, auth_client (Some token) true (input ++ ending_io e ++ more) =
    (match server_says (received input), e with
     | Acked, _ => ClOk
     | Refused, _ => ClErr
     | NoVerdict, StillOpen => ClRunning
     | NoVerdict, _ => ClErr
     end, frame, rest) /\ (blen token < 2 ^ 32 -> auth_frame token frame).
Proof. exact C49_client_needs_acknowledgement_pf. Qed.
Print Assumptions C49_client_needs_acknowledgement.

(** C49 (subscriber): in every history of a subscriber with a token, a connection is put to use only by a connection attempt that has received an acknowledgement (01 v, v <> 0) as the first bytes from the publisher. *)
Theorem C49_subscriber :
  forall token ingress initial D evs s before cid a after,
  sb_run (Some token) ingress initial D sb_init evs = (s, before ++ UOpen cid a :: after) ->
  exists evs1 k input order evs2 used v lost rest, evs = evs1 ++ YJoin k (JConn true input) order :: evs2 /\
    snd (sb_run (Some token) ingress initial D sb_init evs1) = before /\
    input = used ++ rest /\ received used = x01 :: v :: lost /\ v <> x00.
Proof. exact C49_subscriber_pf. Qed.
Print Assumptions C49_subscriber.

(** C49 (request socket): if the polls of the connection task answer as the code of the task does ([progress] telling how far the transport and the handshake are), then in every history of a
    request socket with a token a connection becomes active only if its attempt has received an acknowledgement as the first bytes from the server. *)
Theorem C49_request_socket :
  forall o co D token progress evs s before after,
  (forall e, In (EIter e) evs -> e_task e = req_task (Some token) (progress e)) ->
  rd_run o co D rd_init evs = (s, before ++ Connected :: after) ->
  exists evs1 e evs2 input used v lost rest, evs = evs1 ++ EIter e :: evs2 /\ snd (rd_run o co D rd_init evs1) = before /\
    progress e = CpConn true input /\ input = used ++ rest /\ received used = x01 :: v :: lost /\ v <> x00.
Proof. exact C49_request_socket_pf. Qed.
Print Assumptions C49_request_socket.

Example C49_example :
  let t := [x41; x42] in
  server_says [x01; x01] = Acked /\
  fst (fst (auth_client (Some t) true [IoPending; IoData [x01]; IoPending; IoData [x01; x55]])) = ClOk /\
  fst (fst (auth_client (Some t) true [IoData [x01]; IoData [x00]])) = ClErr /\
  fst (fst (auth_client (Some t) true [IoData [x03; x01]])) = ClErr /\
  fst (fst (auth_client (Some t) true [IoData [x01]; IoData []])) = ClErr /\
  fst (fst (auth_client (Some t) true [IoData [x01]; IoPending])) = ClRunning /\
  (let r := sb_run (Some t) 4 1000 sx_D sb_init [YApi (ApConnect true (Some sx_addr)); YCommand; YJoin 0 (JConn true [IoData [x01; x01]]) []] in In (UOpen 0 sx_addr) (snd r)) /\
  (let r := sb_run (Some t) 4 1000 sx_D sb_init [YApi (ApConnect true (Some sx_addr)); YCommand; YJoin 0 (JConn true [IoData [x01; x00]]) []] in In (UConnectFailed sx_addr) (snd r)) /\
  In Connected (snd (rd_run ex_opts None sx_D rd_init (firstn 2 ex_hist ++ [EIter (mkEnv (21 * ms) false true (req_task (Some t) (CpConn true [IoData [x01; x01]])) NxPending true true 1 true true)]))).
Proof. exact C49_example_pf. Qed.

(** C55 (server): if the client sends its auth frame - in pieces that do not crash the codec (C03) - and nothing else before it has the acknowledgement, the server's handshake succeeds (for a good token) having read exactly this
    frame: the connection it hands over still delivers every byte that comes after it. *)
Theorem C55_server_handshake_reads_only_the_auth_frame :
  forall a token frame pre post,
  auth_frame token frame -> Forall delivery pre -> received pre = frame -> existsb (fatal_cut (blen token)) (cuts 0 pre) = false -> a token = true ->
  exists rest, auth_server a true (pre ++ post) = (AuthOk token, [x01; x01], rest) /\ received rest = received post.
Proof. exact C55_server_handshake_reads_only_the_auth_frame_pf. Qed.
Print Assumptions C55_server_handshake_reads_only_the_auth_frame.

(** C55 (client): if the server sends its acknowledgement and nothing else before it hears from the client again, the client's handshake succeeds having read exactly the acknowledgement:
    the connection it goes on with still delivers every byte that comes after it. *)
Theorem C55_client_handshake_reads_only_the_ack :
  forall token v pre post,
  Forall delivery pre -> received pre = [x01; v] -> v <> x00 ->
  exists w rest, auth_client (Some token) true (pre ++ post) = (ClOk, w, rest) /\ received rest = received post.
Proof. exact C55_client_handshake_reads_only_the_ack_pf. Qed.
Print Assumptions C55_client_handshake_reads_only_the_ack.

(** The hypotheses are met by a frame in two pieces; and they are needed: a server that sends a message right behind its acknowledgement - so that one read returns both - loses it, and so does a client that does not wait. *)
Example C55_example :
  let t := [x41; x42] in let fr := fst (au_encode au_client (AuthM t)) in
  auth_server (fun _ => true) true ([IoData (firstn 3 fr); IoPending; IoData (skipn 3 fr)] ++ [IoData [x02; x00]]) = (AuthOk t, [x01; x01], [IoData [x02; x00]]) /\
  existsb (fatal_cut (blen t)) (cuts 0 [IoData (firstn 3 fr); IoPending; IoData (skipn 3 fr)]) = false /\
  snd (auth_client (Some t) true ([IoData [x01]; IoData [x01]; IoPending] ++ [IoData [x03; x04]])) = [IoPending; IoData [x03; x04]] /\
  (* lost: *)
  auth_server (fun _ => true) true [IoData (fr ++ [x02; x00])] = (AuthOk t, [x01; x01], []) /\
  auth_client (Some t) true [IoData [x01; x01; x03; x04]] = (ClOk, fr, []).
Proof. exact C55_example_pf. Qed.

