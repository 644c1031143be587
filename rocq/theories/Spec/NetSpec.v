(** Vocabulary for the end-to-end properties. *)
From Coq Require Import List NArith.
From Verif Require Import Model.Base Model.Compression Model.Map Model.WireReqRep Model.Framed Model.ReqDriver Model.RepDriver Model.Net Model.ReqRepNet Spec.ReqSpec Spec.RepSpec.
Import ListNotations.
Open Scope N_scope.

(** The request() calls made by the client application, in order, with their payloads. *)
Definition asked (evs : list yev) : list (N * bytes) :=
  flat_map (fun ev => match ev with YReq c p => [(c, p)] | _ => [] end) evs.

(** Request frames the reply socket received on its connection [cid], in order: request number and frame. *)
Definition requests_on (cid : N) (l : list rout) : list (N * rr_msg) :=
  flat_map (fun x => match x with RIncoming c _ r m => if eq_dec c cid then [(r, m)] else [] | _ => [] end) l.

(** The reply socket's connection [cid] is the client's connection number [l] (in the order in which it made them). *)
Definition client_connection (y : sys) (cid l : N) : Prop := mget cid (sy_cids y) = Some l.

(** All frame payloads either side wrote are shorter than 4 GiB (the length field of a frame has 32 bits). *)
Definition frames_fit (y : sys) : Prop :=
  (forall m, In m (taken (sy_clog y)) -> blen (rr_payload m) < 2 ^ 32) /\
  (forall m, In m (taken_frames (sy_slog y)) -> blen (rr_payload m) < 2 ^ 32).

(** Whenever the server application answered a request with payload [q], it was with [f q]. *)
Definition answers_with (f : bytes -> bytes) (l : list rout) : Prop :=
  forall addr rid q x, In (RReceived (mkReq addr rid q)) l -> In (RResponded rid x true) l -> x = f q.

(** *** A concrete run for the examples.
    A request socket with token "t" and a reply socket that accepts exactly this token, no compression.  The client asks "A"
    and "B"; the handshake and the requests arrive in pieces, the server answers "bb" before "aa". *)
Definition nx_tok : bytes := [x74].
Definition nx_auth (t : bytes) : bool := match t with [x74] => true | _ => false end.
Definition nx_cl (t : N) (tio nio : list io) : yev := YClient (ex_env t) false tio nio.
Definition nx_sv (input : list io) : yev := YPeer 5 (rx_penv NxPending) input.
Definition nx_evs : list yev :=
  [nx_cl 0 [] []; nx_cl (20 * ms) [] []; YConnected true; YReq 7 [x41]; YReq 8 [x42];
   YAccept (Some 0); YConn 0 (Some (Some 5)); YAuth 0 [IoData [x01; x00]; IoPending; IoData [x00; x00; x01; x74]] true;
   nx_cl (21 * ms) [IoData [x01; x01]] []; nx_cl (22 * ms) [] []; nx_cl (22 * ms) [] []; nx_cl (22 * ms) [] [];
   nx_cl (22 * ms) [] [];
   nx_sv [IoData (rr_encode (rr_new 0 x00 [x41]) ++ [x02])]; nx_sv [IoData (skipn 1 (rr_encode (rr_new 1 x00 [x42])))];
   YRecv; YRecv; YRespond 1 [x62; x62]; YRespond 0 [x61; x61];
   nx_sv []; nx_sv []; nx_sv []; nx_sv [];
   nx_cl (23 * ms) [] [IoData (rr_encode (rr_new 0 x00 [x61; x61]))];
   nx_cl (23 * ms) [] [IoData (rr_encode (rr_new 1 x00 [x62; x62]))]].
(** The server's function: double the letter, in lower case. *)
Definition nx_f (q : bytes) : bytes := match q with [x41] => [x61; x61] | [x42] => [x62; x62] | _ => [] end.

(** The same client with an authenticator that accepts nothing (C71). *)
Definition nx_reject (D : decompressors) : sys :=
  y_run ex_opts (Some nx_tok) None None 0 (Some (fun _ => false)) None D (firstn 8 nx_evs ++ [nx_cl (21 * ms) [IoData [x01; x00]] []]).
(** A client without a token, whose requests the server takes for a (bad) authentication message. *)
Definition nx_notoken (D : decompressors) : sys :=
  y_run ex_opts None None None 0 (Some nx_auth) None D
    [nx_cl 0 [] []; nx_cl (20 * ms) [] []; YConnected true; YReq 7 [x41]; nx_cl (21 * ms) [] []; nx_cl (22 * ms) [] []; nx_cl (22 * ms) [] [];
     YAccept (Some 0); YConn 0 (Some (Some 5)); YAuth 0 [IoData [x02]] true].
