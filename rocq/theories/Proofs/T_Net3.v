(** End-to-end authentication: C71. *)
From Coq Require Import List NArith.
From Verif Require Import Model.Base Model.Map Model.Framed Model.WireReqRep Model.WirePubSub Model.WireAuth Model.Compression Model.Handshake
  Model.ReqDriver Model.RepDriver Model.PubDriver Model.JoinMap Model.SubDriver Model.Net Model.ReqRepNet Model.PubSubNet
  Spec.ReqSpec Spec.RepSpec Spec.PubSpec Spec.SubSpec Spec.NetSpec Spec.NetSpec2.
Import ListNotations.
Open Scope N_scope.
(*HEADEND*)
From Coq Require Import ZArith Lia.
From Verif Require Import Proofs.BaseP Proofs.MapP.
From Verif Require Proofs.ReqRepNetP Proofs.ReqRepNetP2 Proofs.ReqRepNetP3 Proofs.ReqRepNetP4 Proofs.ReqRepNetP6 Proofs.PubSubNetP Proofs.PubSubNetP2 Proofs.PubSubNetP3 Proofs.PubSubNetP5 Proofs.PubSubNetP6 Proofs.T_Req Proofs.T_Sub.

(** ** C71 *)
(*@prop C71 (request/reply): in every joint history of a request socket and a reply socket with authenticator [a] - every interleaving,
    every fragmentation, any number of reconnects, any other clients -: if the request socket has no token, or one that [a] does not
    accept, then the reply socket receives no request on any of its connections, sends nothing on them, and no request() returns Ok. *)
Lemma C71_request_without_accepted_token_pf :
  forall (o : ropts) (token : option bytes) (cco : option compressor) (max : option N) (min : N)
         (a : bytes -> bool) (sco : option compressor) (D : decompressors) (evs : list yev),
  let y := y_run o token cco max min (Some a) sco D evs in
  (forall t, token = Some t -> blen t < 2 ^ 32) -> (forall t, token = Some t -> a t = false) ->
  (forall cid l, client_connection y cid l -> requests_on cid (sy_slog y) = [] /\ forall m, ~ In (RHanded cid m true) (sy_slog y)) /\
  (forall c x, ~ In (Resolve c (OOk x)) (sy_clog y)).
Proof.
  intros o token cco max min a sco D evs y TOK No. pose proof (ReqRepNetP4.y_inv o token cco max min (Some a) sco D TOK evs) as Y. fold y in Y.
  destruct Y as ((C1 & _ & _ & _ & _ & _ & _ & C8 & _) & L & (S1 & _ & _ & _ & S5 & S6 & _)).
  assert (Nad : ~ ReqRepNetP2.admitted_client token (Some a)) by (intros (a' & t & Ea & Et & At); inversion Ea; subst a'; rewrite (No _ Et) in At; discriminate).
  assert (Off : forall l k, mget l (sy_links y) = Some k -> en_items (lk_s k) = [] /\ en_sent (lk_s k) = []).
  { intros l k G. destruct (L _ _ G) as (_ & _ & _ & _ & _ & _ & K7 & K8). destruct (en_on (lk_s k)) eqn:On; [destruct (K8 eq_refl) as [_ X]; contradiction|destruct (K7 eq_refl) as (A & B & _); auto]. }
  split.
  - intros cid l Hc. unfold client_connection in Hc. assert (G : exists k, mget l (sy_links y) = Some k).
    { pose proof (ReqRepNetP4.y_inv o token cco max min (Some a) sco D TOK evs) as (_ & _ & (_ & _ & S3 & _)). apply (S3 _ _ Hc). }
    destruct G as [k G]. destruct (S6 _ _ _ Hc G) as (E1 & E2 & _). destruct (Off _ _ G) as [O1 O2]. rewrite O1 in E2. rewrite O2 in E1. split.
    + pose proof (ReqRepNetP6.requests_inc cid (sy_slog y)) as R. rewrite <- E2 in R. destruct (requests_on cid (sy_slog y)); [reflexivity|discriminate].
    + intros m Hm. apply (proj2 (ReqRepNetP.in_tak cid m (sy_slog y))) in Hm. rewrite <- E1 in Hm. contradiction.
  - intros c x H. apply in_split in H. destruct H as (before & after & E).
    destruct (T_Req.C10_response_matches_request_pf o cco D _ _ _ c x before after C1 E) as (m & t & req & l1 & l2 & Rs & _).
    destruct (C8 _ Rs) as (l & k & G & Hm). destruct (Off _ _ G) as [_ O2].
    destruct (ReqRepNetP2.items_c token (Some a) k (L _ _ G)) as [r Hr]; [rewrite O2; constructor|]. rewrite O2 in Hr. symmetry in Hr. apply app_eq_nil in Hr. destruct Hr as [Hr _]. rewrite Hr in Hm. contradiction.
Qed.

(*@prop C71 (request/reply): a request socket with a token uses a connection to the reply socket - takes it into service, or writes a request
    to it - only if the reply socket has an authenticator and it accepted exactly this token. *)
Lemma C71_request_connects_only_if_accepted_pf :
  forall (o : ropts) (t : bytes) (cco : option compressor) (max : option N) (min : N)
         (auth : option (bytes -> bool)) (sco : option compressor) (D : decompressors) (evs : list yev),
  let y := y_run o (Some t) cco max min auth sco D evs in
  blen t < 2 ^ 32 -> In Connected (sy_clog y) \/ (exists m, In (Handed m true) (sy_clog y)) ->
  exists a, auth = Some a /\ a t = true.
Proof.
  intros o t cco max min auth sco D evs y Lt H. pose proof (ReqRepNetP4.y_inv o (Some t) cco max min auth sco D) as Y. specialize (Y ltac:(intros t' [= <-]; exact Lt) evs). fold y in Y.
  destruct Y as ((_ & C2 & _ & _ & _ & _ & C7 & _ & C9) & L & _).
  assert (X : exists l k, mget l (sy_links y) = Some k /\ en_on (lk_c k) = true).
  { destruct H as [H|[m H]]; [exact (C9 H)|].
    assert (Hm : In m (ReqSpec.taken (sy_clog y))) by (unfold ReqSpec.taken; apply in_flat_map; eexists; split; [exact H|left; reflexivity]).
    rewrite <- C7 in Hm. unfold ReqRepNetP.sents in Hm. apply in_flat_map in Hm. destruct Hm as ([l k] & Hl & Hs). cbn [snd] in Hs.
    assert (G : mget l (sy_links y) = Some k) by (apply in_mget; [apply ReqRepNetP.numbered_nodup; exact C2|exact Hl]).
    exists l, k. split; [exact G|]. destruct (L _ _ G) as (_ & _ & K3 & _). destruct (en_on (lk_c k)) eqn:On; [reflexivity|]. specialize (K3 eq_refl). apply ReqRepNetP2.noin_eq in K3.
    destruct K3 as (_ & _ & _ & _ & K & _). rewrite K in Hs. contradiction. }
  destruct X as (l & k & G & On). destruct (L _ _ G) as (_ & _ & _ & _ & K5 & K6 & _). specialize (K5 On). destruct K5 as [_ K5].
  destruct K6 as [K6|[[_ (a & t' & Ea & Et & At)]|K6]]; [congruence| |congruence]. inversion Et; subst t'. eauto.
Qed.

(*@prop C71 (publish/subscribe): in every joint history of a subscriber and a publisher with authenticator [a]: if the subscriber has no token,
    or one that [a] does not accept, the publisher honours no control frame on its connections and writes no message to them, and the
    subscriber obtains nothing from this publisher. *)
Lemma C71_subscriber_without_accepted_token_pf :
  forall (token : option bytes) (ingress initial : N) (D : decompressors) (max : option N) (buf min : N)
         (a : bytes -> bool) (co : option compressor) (evs : list zev),
  let z := z_run token ingress initial D max buf min (Some a) co evs in
  (forall t, token = Some t -> blen t < 2 ^ 32) -> (forall t, token = Some t -> a t = false) ->
  (forall d, from_subscriber z d -> controls_on d (z_slog z) = [] /\ taken_on d (z_slog z) = []) /\
  (forall c, to_publisher z c -> obtained c (z_clog z) = []).
Proof.
  intros token ingress initial D max buf min a co evs z TOK No. pose proof (PubSubNetP5.z_inv token ingress initial D max buf min (Some a) co TOK evs) as Z. fold z in Z.
  destruct Z as ((C1 & _ & _ & C4 & C5 & _) & L & (S1 & _ & S3 & _ & S5 & S6 & _)).
  assert (Nad : ~ PubSubNetP2.admitted_client token (Some a)) by (intros (a' & t & Ea & Et & At); inversion Ea; subst a'; rewrite (No _ Et) in At; discriminate).
  assert (Off : forall l k, mget l (z_links z) = Some k -> en_items (lk_s k) = [] /\ en_sent (lk_s k) = []).
  { intros l k G. destruct (L _ _ G) as (_ & _ & _ & _ & _ & _ & K7 & K8). destruct (en_on (lk_s k)) eqn:On; [destruct (K8 eq_refl) as [_ X]; contradiction|destruct (K7 eq_refl) as (A & B & _); auto]. }
  split.
  - intros d Hd. unfold from_subscriber in Hd. destruct (mget d (z_scids z)) as [l|] eqn:Hl; [|congruence]. destruct (S3 _ _ Hl) as [_ [k G]].
    destruct (S6 _ _ _ Hl G) as (E1 & E2 & _). destruct (Off _ _ G) as [O1 O2]. split; [transitivity (en_items (lk_s k)); [symmetry; exact E2|exact O1]|transitivity (en_sent (lk_s k)); [symmetry; exact E1|exact O2]].
  - intros c Hc. unfold to_publisher in Hc. destruct (mget c (z_ccids z)) as [l|] eqn:Hl; [|congruence]. destruct (C4 _ _ Hl) as [_ [k G]].
    destruct (C5 _ _ _ Hl G) as (_ & _ & E3). destruct (Off _ _ G) as [_ O2].
    destruct (PubSubNetP2.items_c token (Some a) k (L _ _ G)) as [r Hr]; [rewrite O2; constructor|]. rewrite O2, E3 in Hr. symmetry in Hr. apply app_eq_nil in Hr. destruct Hr as [Hr _].
    destruct (T_Sub.C43_in_order_unmodified_pf _ _ _ _ _ _ _ c C1) as (ms & Sm & Fm). rewrite Hr in Sm. inversion Sm; subst. unfold obtained. destruct (yielded c (z_clog z)); [reflexivity|inversion Fm].
Qed.

(*@prop C71 (publish/subscribe): a subscriber with a token uses a connection to the publisher only if the publisher has an authenticator and it
    accepted exactly this token. *)
Lemma C71_subscriber_connects_only_if_accepted_pf :
  forall (t : bytes) (ingress initial : N) (D : decompressors) (max : option N) (buf min : N)
         (auth : option (bytes -> bool)) (co : option compressor) (evs : list zev) (c : N),
  let z := z_run (Some t) ingress initial D max buf min auth co evs in
  blen t < 2 ^ 32 -> to_publisher z c -> exists a, auth = Some a /\ a t = true.
Proof.
  intros t ingress initial D max buf min auth co evs c z Lt Hc. pose proof (PubSubNetP5.z_inv (Some t) ingress initial D max buf min auth co) as Z. specialize (Z ltac:(intros t' [= <-]; exact Lt) evs). fold z in Z.
  destruct Z as ((_ & _ & _ & C4 & C5 & _) & L & _).
  unfold to_publisher in Hc. destruct (mget c (z_ccids z)) as [l|] eqn:Hl; [|congruence]. destruct (C4 _ _ Hl) as [_ [k G]]. destruct (C5 _ _ _ Hl G) as (On & _).
  destruct (L _ _ G) as (_ & _ & _ & _ & K5 & K6 & _). specialize (K5 On). destruct K5 as [_ K5].
  destruct K6 as [K6|[[_ (a & t' & Ea & Et & At)]|K6]]; [congruence| |congruence]. inversion Et; subst t'. eauto.
Qed.

(*@example The hypotheses are met by runs in which the client connects and is refused (by an authenticator that accepts nothing, or because it
    sends requests without a token), and the conclusions of the other two by the runs of C53 and C54, in which it is accepted. *)
Lemma C71_example_pf :
  forall D : decompressors,
  (let y := nx_reject D in client_connection y 0 0 /\ In (RAuthReply 0 [x01; x00]) (sy_slog y) /\ In ConnectFailed (sy_clog y) /\ ~ In Connected (sy_clog y)) /\
  (let y := nx_notoken D in client_connection y 0 0 /\ In Connected (sy_clog y) /\ (exists m, In (Handed m true) (sy_clog y)) /\ In (RGone 0) (sy_slog y)) /\
  In Connected (sy_clog (y_run ex_opts (Some nx_tok) None None 0 (Some nx_auth) None D nx_evs)) /\
  (let z := zx_reject in from_subscriber z 0 /\ In (QAuthReply 0 [x01; x00]) (z_slog z) /\ In (UConnectFailed sx_addr) (z_clog z)) /\
  to_publisher zx_run 0.
Proof.
  intros D. cbv zeta.
  let v := eval vm_compute in (sy_clog (nx_reject D)) in assert (E1 : sy_clog (nx_reject D) = v) by (vm_compute; reflexivity).
  let v := eval vm_compute in (sy_slog (nx_reject D)) in assert (E2 : sy_slog (nx_reject D) = v) by (vm_compute; reflexivity).
  let v := eval vm_compute in (sy_clog (nx_notoken D)) in assert (E3 : sy_clog (nx_notoken D) = v) by (vm_compute; reflexivity).
  let v := eval vm_compute in (sy_slog (nx_notoken D)) in assert (E4 : sy_slog (nx_notoken D) = v) by (vm_compute; reflexivity).
  let v := eval vm_compute in (sy_clog (y_run ex_opts (Some nx_tok) None None 0 (Some nx_auth) None D nx_evs)) in
  assert (E5 : sy_clog (y_run ex_opts (Some nx_tok) None None 0 (Some nx_auth) None D nx_evs) = v) by (vm_compute; reflexivity).
  let v := eval vm_compute in (z_slog zx_reject) in assert (E6 : z_slog zx_reject = v) by (vm_compute; reflexivity).
  let v := eval vm_compute in (z_clog zx_reject) in assert (E7 : z_clog zx_reject = v) by (vm_compute; reflexivity).
  rewrite E1, E2, E3, E4, E5, E6, E7.
  split; [|split; [|split; [|split]]].
  - split; [vm_compute; reflexivity|]. split; [repeat (first [left; reflexivity | right])|]. split; [repeat (first [left; reflexivity | right])|].
    intros H; cbn [In] in H; intuition discriminate.
  - split; [vm_compute; reflexivity|]. split; [repeat (first [left; reflexivity | right])|]. split; [eexists; repeat (first [left; reflexivity | right])|repeat (first [left; reflexivity | right])].
  - repeat (first [left; reflexivity | right]).
  - split; [vm_compute; discriminate|]. split; repeat (first [left; reflexivity | right]).
  - vm_compute. discriminate.
Qed.
