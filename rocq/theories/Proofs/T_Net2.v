(** Publish/subscribe, end to end: C54. *)
From Coq Require Import ZArith Sorting.Sorted.
From Verif Require Import Model.Base Model.Map Model.Framed Model.WirePubSub Model.Compression Model.JoinMap Model.Utf8 Model.Trie Model.PubDriver Model.SubDriver Model.Net Model.PubSubNet
  Spec.Stream Spec.Utf8Spec Spec.CompressSpec Spec.Topics Spec.PubSpec Spec.SubSpec Spec.NetSpec2.
Local Open Scope N_scope.
(*HEADEND*)
From Verif Require Import Proofs.BaseP Proofs.MapP Proofs.PubSubNetP6 Proofs.PubSubNetP7 Proofs.PubSubNetP8 Proofs.PubSubNetP9.

(*@prop C54: in every joint history of a subscriber and a publisher socket (with any other peers, any losses of connections, any
    cutting and delay of the bytes), the two ends of a connection between them correspond one to one; what the subscriber received on
    it is a prefix of what the publisher wrote on it, and the control frames the publisher received are a prefix of those the subscriber
    wrote; and nothing is received on a connection the publisher never took. *)
Lemma C54_connections_are_faithful_pf :
  forall (token : option bytes) (ingress initial : N) (D : decompressors) (max : option N) (buf min : N)
         (auth : option (bytes -> bool)) (co : option compressor) (evs : list zev),
  let z := z_run token ingress initial D max buf min auth co evs in
  (forall t, token = Some t -> blen t < 2 ^ 32) -> ps_frames_fit z ->
  (forall c d d', same_connection z c d -> same_connection z c d' -> d = d') /\
  (forall c c' d, same_connection z c d -> same_connection z c' d -> c = c') /\
  (forall c d, same_connection z c d -> prefix_of (received_on c (z_clog z)) (taken_on d (z_slog z)) /\ prefix_of (controls_on d (z_slog z)) (written_on c (z_clog z))) /\
  (forall c, to_publisher z c -> (forall d, ~ same_connection z c d) -> received_on c (z_clog z) = []).
Proof.
  intros token ingress initial D max buf min auth co evs z T F. split; [|split; [|split]].
  - intros c d d' H. apply (conn_once token ingress initial D max buf min auth co T evs c d d' c H).
  - intros c c' d H. apply (conn_once token ingress initial D max buf min auth co T evs c d d c' H).
  - intros c d. apply (conn_frames token ingress initial D max buf min auth co T evs c d F).
  - intros c. apply (conn_alone token ingress initial D max buf min auth co T evs c).
Qed.

(*@prop C54: what the subscriber's application obtains from one connection to the publisher is a subsequence of the publish() and
    try_publish() calls made there - same topics, same payloads, same order, each at most once - whatever compression the publisher
    uses. *)
Lemma C54_obtained_were_published_pf :
  forall (token : option bytes) (ingress initial : N) (D : decompressors) (max : option N) (buf min : N)
         (auth : option (bytes -> bool)) (co : option compressor) (evs : list zev) (c : N),
  let z := z_run token ingress initial D max buf min auth co evs in
  (forall t, token = Some t -> blen t < 2 ^ 32) -> ps_frames_fit z ->
  (forall k, co = Some k -> inverse_of D k) -> (forall t p, In (t, p) (announced evs) -> utf8 t) ->
  to_publisher z c -> subseq (obtained c (z_clog z)) (announced evs).
Proof. intros. apply obtained_announced; assumption. Qed.

(*@prop C54: only subscribed topics: each message obtained matches, under the documented wildcard rules, a topic the application
    subscribed to and that, after some number of the control frames sent on this connection, was held there.  (Subscriptions with `>`
    elsewhere than at the end are excluded: C29.) *)
Lemma C54_only_subscribed_pf :
  forall (token : option bytes) (ingress initial : N) (D : decompressors) (max : option N) (buf min : N)
         (auth : option (bytes -> bool)) (co : option compressor) (evs : list zev) (c : N) (t p : bytes) (tt : list bytes),
  let z := z_run token ingress initial D max buf min auth co evs in
  (forall t, token = Some t -> blen t < 2 ^ 32) -> ps_frames_fit z ->
  (forall t p, In (t, p) (announced evs) -> utf8 t) ->
  (forall b u, In (ApSub b u) (calls (z_clog z)) -> utf8 u /\ forall us, tokens_of u us -> gt_only_last us) ->
  to_publisher z c -> In (t, p) (obtained c (z_clog z)) -> tokens_of t tt ->
  exists n s ss b, held (means (firstn n (written_on c (z_clog z)))) s /\ tokens_of s ss /\ matches ss tt /\ In (ApSub b s) (calls (z_clog z)).
Proof. intros. eapply only_subscribed; eassumption. Qed.

(*@prop C54: nothing is missing: once everything has arrived and been taken out, if the subscriber had to refuse nothing and the
    connection is up, the application has obtained exactly - once, in order, unmodified - the calls whose message was due on this
    connection (read by the publisher's session when its filter contained the topic). *)
Lemma C54_nothing_missing_at_rest_pf :
  forall (token : option bytes) (ingress initial : N) (D : decompressors) (max : option N) (buf min : N)
         (auth : option (bytes -> bool)) (co : option compressor) (evs : list zev) (c d : N),
  let z := z_run token ingress initial D max buf min auth co evs in
  (forall t, token = Some t -> blen t < 2 ^ 32) -> ps_frames_fit z ->
  (forall k, co = Some k -> inverse_of D k) -> (forall t p, In (t, p) (announced evs) -> utf8 t) ->
  all_published (z_slog z) -> same_connection z c d ->
  arrived z c -> ~ In d (sub_ended (z_slog z)) -> (forall i, ~ about_to_be_sent (z_s z) (z_slog z) d i) ->
  nothing_refused c (z_clog z) -> all_taken_out z c ->
  exists is, StronglySorted N.lt is /\ (forall i, In i is <-> due d (z_slog z) i) /\
    Forall2 (fun i q => nth_error (announced evs) (N.to_nat i) = Some q) is (obtained c (z_clog z)).
Proof. intros. apply obtained_due; assumption. Qed.

Ltac ascii := match goal with |- utf8 ?u => exists (map Byte.to_N u); split; [repeat constructor; left; vm_compute; reflexivity|vm_compute; reflexivity] end.
(*@example *)
Lemma C54_example_pf :
  let z := zx_run in
  blen zx_tok < 2 ^ 32 /\ ps_frames_fit z /\ inverse_of zx_D zx_co /\ (forall t p, In (t, p) (announced zx_evs) -> utf8 t) /\
  (forall b u, In (ApSub b u) (calls (z_clog z)) -> utf8 u /\ forall us, tokens_of u us -> gt_only_last us) /\
  all_published (z_slog z) /\ to_publisher z 0 /\ same_connection z 0 0 /\ arrived z 0 /\ ~ In 0 (sub_ended (z_slog z)) /\
  (forall i, ~ about_to_be_sent (z_s z) (z_slog z) 0 i) /\ nothing_refused 0 (z_clog z) /\ all_taken_out z 0 /\
  due 0 (z_slog z) 0 /\ ~ due 0 (z_slog z) 1 /\ due 0 (z_slog z) 2 /\
  obtained 0 (z_clog z) = [(zx_ab, [x01]); (zx_cb, [x03])].
Proof.
  cbv zeta.
  let v := eval vm_compute in (z_clog zx_run) in assert (Ec : z_clog zx_run = v) by (vm_compute; reflexivity).
  let v := eval vm_compute in (z_slog zx_run) in assert (Es : z_slog zx_run = v) by (vm_compute; reflexivity).
  assert (E1 : z_ccids zx_run = [(0, 0)]) by (vm_compute; reflexivity).
  assert (E2 : z_scids zx_run = [(0, 0)]) by (vm_compute; reflexivity).
  let v := eval vm_compute in (mget 0 (z_links zx_run)) in assert (El : mget 0 (z_links zx_run) = v) by (vm_compute; reflexivity).
  let v := eval vm_compute in (mget 0 (sb_conns (z_c zx_run))) in assert (Ex : mget 0 (sb_conns (z_c zx_run)) = v) by (vm_compute; reflexivity).
  assert (Eo : sb_out (z_c zx_run) = []) by (vm_compute; reflexivity).
  let v := eval vm_compute in (mget 0 (pb_sess (z_s zx_run))) in assert (Ep : mget 0 (pb_sess (z_s zx_run)) = v) by (vm_compute; reflexivity).
  remember zx_run as z. clear Heqz.
  split; [vm_compute; reflexivity|].
  split. { split; [rewrite Es|rewrite Ec]; intros d m H; cbn [In] in H; repeat (destruct H as [H|H]; [try discriminate; injection H as <- <-; repeat split; vm_compute; reflexivity|]); contradiction. }
  split. { intros p q H. cbn in H |- *. injection H as <-. reflexivity. }
  split. { intros t p H. cbn [announced zx_evs flat_map app In] in H. repeat (destruct H as [H|H]; [injection H as <- <-; ascii|]); contradiction. }
  split. { intros b u H. rewrite Ec in H. cbn [calls flat_map app In] in H. repeat (destruct H as [H|H]; [try discriminate; injection H as <- <-|]); [|contradiction]. split; [ascii|].
    intros us (N & J & Dt) Hg.
    assert (Hin : In gt us) by (clear - Hg; induction us as [|x us IH]; [destruct Hg|]; cbn [removelast] in Hg; destruct us; [destruct Hg|]; destruct Hg as [->|Hg]; [left; reflexivity|right; auto]).
    assert (Hj : forall l, In gt l -> In x3e (join l)). { clear. induction l as [|x l IH]; [intros []|]. intros [->|H]; [destruct l; cbn; auto|]. destruct l as [|y l]; [destruct H|]. cbn [join]. apply in_or_app. right. right. apply IH, H. }
    apply Hj in Hin. rewrite J in Hin. cbn in Hin. intuition discriminate. }
  split. { rewrite Es. split; intros H; cbn [In] in H; intuition discriminate. }
  split. { unfold to_publisher. rewrite E1. discriminate. }
  split. { exists 0. rewrite E1, E2. split; reflexivity. }
  split. { exists 0. rewrite E1, El. eexists. split; [reflexivity|]. split; [reflexivity|]. vm_compute. auto. }
  split. { rewrite Es. intros []. }
  split. { intros i (x & m & p & G & Pm & _). rewrite Ep in G. injection G as <-. discriminate. }
  split. { unfold nothing_refused. rewrite Ec. split; [|split; [|split]].
    - intros m now r H. cbn [In] in H. repeat (destruct H as [H|H]; [try discriminate; injection H; congruence|]). contradiction.
    - intros m a p r H. cbn [In] in H. repeat (destruct H as [H|H]; [try discriminate; injection H; congruence|]). contradiction.
    - intros (lost & H). cbn [In] in H. intuition discriminate.
    - intros H. cbn [In] in H. intuition discriminate. }
  split. { split; [|exact Eo]. intros x G. rewrite Ex in G. injection G as <-. reflexivity. }
  rewrite Es, Ec.
  split. { match goal with |- due _ ?l _ => exists (firstn 8 l), (skipn 9 l) end. eexists. split; [vm_compute; reflexivity|]. split; [vm_compute; reflexivity|]. vm_compute. reflexivity. }
  split. { intros (before & after & p & E & Em & Tc).
    repeat (destruct before as [|x before]; [cbn [app] in E; first [discriminate E|injection E as E; exfalso; vm_compute in Em; injection Em as <-; vm_compute in Tc; discriminate Tc]|cbn [app] in E; first [discriminate E|injection E as <- E]]). }
  split. { match goal with |- due _ ?l _ => exists (firstn 11 l), (skipn 12 l) end. eexists. split; [vm_compute; reflexivity|]. split; [vm_compute; reflexivity|]. vm_compute. reflexivity. }
  vm_compute. reflexivity.
Qed.
