(** GENERATED by tools/gen_props.py from Proofs/T_Net3.v: statements only. *)

(** End-to-end authentication: C71. *)
From Coq Require Import List NArith.
From Verif Require Import Model.Base Model.Map Model.Framed Model.WireReqRep Model.WirePubSub Model.WireAuth Model.Compression Model.Handshake
  Model.ReqDriver Model.RepDriver Model.PubDriver Model.JoinMap Model.SubDriver Model.Net Model.ReqRepNet Model.PubSubNet
  Spec.ReqSpec Spec.RepSpec Spec.PubSpec Spec.SubSpec Spec.NetSpec Spec.NetSpec2.
Import ListNotations.
Open Scope N_scope.
From Verif Require Import Proofs.T_Net3.

(** C71 (request/reply): in every joint history of a request socket and a reply socket with authenticator [a] - every interleaving,
    every fragmentation, any number of reconnects, any other clients -: if the request socket has no token, or one that [a] does not
    accept, then the reply socket receives no request on any of its connections, sends nothing on them, and no request() returns Ok. *)
Theorem C71_request_without_accepted_token :
  forall (o : ropts) (token : option bytes) (cco : option compressor) (max : option N) (min : N)
         (a : bytes -> bool) (sco : option compressor) (D : decompressors) (evs : list yev),
  let y := y_run o token cco max min (Some a) sco D evs in
  (forall t, token = Some t -> blen t < 2 ^ 32) -> (forall t, token = Some t -> a t = false) ->
  (forall cid l, client_connection y cid l -> requests_on cid (sy_slog y) = [] /\ forall m, ~ In (RHanded cid m true) (sy_slog y)) /\
  (forall c x, ~ In (Resolve c (OOk x)) (sy_clog y)).
Proof. exact C71_request_without_accepted_token_pf. Qed.
Print Assumptions C71_request_without_accepted_token.

(** C71 (request/reply): a request socket with a token uses a connection to the reply socket - takes it into service, or writes a request
    to it - only if the reply socket has an authenticator and it accepted exactly this token. *)
Theorem C71_request_connects_only_if_accepted :
  forall (o : ropts) (t : bytes) (cco : option compressor) (max : option N) (min : N)
         (auth : option (bytes -> bool)) (sco : option compressor) (D : decompressors) (evs : list yev),
  let y := y_run o (Some t) cco max min auth sco D evs in
  blen t < 2 ^ 32 -> In Connected (sy_clog y) \/ (exists m, In (Handed m true) (sy_clog y)) ->
  exists a, auth = Some a /\ a t = true.
Proof. exact C71_request_connects_only_if_accepted_pf. Qed.
Print Assumptions C71_request_connects_only_if_accepted.

(** C71 (publish/subscribe): in every joint history of a subscriber and a publisher with authenticator [a]: if the subscriber has no token,
    or one that [a] does not accept, the publisher honours no control frame on its connections and writes no message to them, and the
    subscriber obtains nothing from this publisher. *)
Theorem C71_subscriber_without_accepted_token :
  forall (token : option bytes) (ingress initial : N) (D : decompressors) (max : option N) (buf min : N)
         (a : bytes -> bool) (co : option compressor) (evs : list zev),
  let z := z_run token ingress initial D max buf min (Some a) co evs in
  (forall t, token = Some t -> blen t < 2 ^ 32) -> (forall t, token = Some t -> a t = false) ->
  (forall d, from_subscriber z d -> controls_on d (z_slog z) = [] /\ taken_on d (z_slog z) = []) /\
  (forall c, to_publisher z c -> obtained c (z_clog z) = []).
Proof. exact C71_subscriber_without_accepted_token_pf. Qed.
Print Assumptions C71_subscriber_without_accepted_token.

(** C71 (publish/subscribe): a subscriber with a token uses a connection to the publisher only if the publisher has an authenticator and it
    accepted exactly this token. *)
Theorem C71_subscriber_connects_only_if_accepted :
  forall (t : bytes) (ingress initial : N) (D : decompressors) (max : option N) (buf min : N)
         (auth : option (bytes -> bool)) (co : option compressor) (evs : list zev) (c : N),
  let z := z_run (Some t) ingress initial D max buf min auth co evs in
  blen t < 2 ^ 32 -> to_publisher z c -> exists a, auth = Some a /\ a t = true.
Proof. exact C71_subscriber_connects_only_if_accepted_pf. Qed.
Print Assumptions C71_subscriber_connects_only_if_accepted.

(** The hypotheses are met by runs in which the client connects and is refused (by an authenticator that accepts nothing, or because it
    sends requests without a token), and the conclusions of the other two by the runs of C53 and C54, in which it is accepted. *)
Example C71_example :
  forall D : decompressors,
  (let y := nx_reject D in client_connection y 0 0 /\ In (RAuthReply 0 [x01; x00]) (sy_slog y) /\ In ConnectFailed (sy_clog y) /\ ~ In Connected (sy_clog y)) /\
  (let y := nx_notoken D in client_connection y 0 0 /\ In Connected (sy_clog y) /\ (exists m, In (Handed m true) (sy_clog y)) /\ In (RGone 0) (sy_slog y)) /\
  In Connected (sy_clog (y_run ex_opts (Some nx_tok) None None 0 (Some nx_auth) None D nx_evs)) /\
  (let z := zx_reject in from_subscriber z 0 /\ In (QAuthReply 0 [x01; x00]) (z_slog z) /\ In (UConnectFailed sx_addr) (z_clog z)) /\
  to_publisher zx_run 0.
Proof. exact C71_example_pf. Qed.

