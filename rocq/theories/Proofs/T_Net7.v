(** Joint model of a subscriber and a publisher socket: there is always a way on (C79), subscriptions take effect (C80). *)
From Coq Require Import List NArith Sorting.Sorted Init.Byte.
From Verif Require Import Model.Base Model.Map Model.Framed Model.WirePubSub Model.WireAuth Model.Compression Model.Handshake Model.JoinMap Model.Backoff Model.Trie Model.PubDriver Model.SubDriver Model.Net Model.PubSubNet
  Spec.CompressSpec Spec.Utf8Spec Spec.Topics Spec.PubSpec Spec.SubSpec Spec.NetSpec2 Spec.NetSpec6.
Import ListNotations.
Open Scope N_scope.
(*HEADEND*)
From Verif Require Import Model.Utf8 Proofs.MapP Proofs.TrieP Proofs.PubSubNetP12 Proofs.PubSubNetP14 Proofs.PubSubNetP15.
From Verif Require Proofs.Utf8P Proofs.T_Trie.
Local Open Scope N_scope.

(*@prop C79: whatever happened before, if a subscriber and a publisher are in touch, then there is a sequence of steps, each of
    which only needs the session tasks, the driver and the application to do their work on a network that carries data,
    after which nothing is left to do, and there are at most as many steps as there is work: 5 for a message the
    publisher's session has not looked at, 4 for one it has in hand, 3 for one on its way or for a command, and so on.  So
    there is no deadlock, whatever is in the queues and in whatever pieces data has arrived.  Meanwhile nothing is refused,
    no connection ends and nothing else changes. *)
Lemma C79_way_to_rest_pf :
  forall (token : option bytes) (ingress initial : N) (D : decompressors) (max : option N) (buf min : N)
         (auth : option (bytes -> bool)) (co : option compressor) (now c d : N) (evs : list zev),
  let run := z_run token ingress initial D max buf min auth co in
  (forall t, token = Some t -> blen t < 2 ^ 32) -> 0 < ingress -> (forall cm, co = Some cm -> inverse_of D cm) -> now < 2 ^ 64 ->
  Forall (input_fits co) evs -> in_touch (run evs) c d ->
  exists more, let z' := run (evs ++ more) in
    Forall (helpful now c d) more /\ (length more <= work_to_do (run evs) c d)%nat /\
    in_touch z' c d /\ all_done z' c d /\ near c d (run evs) z'.
Proof.
  intros token ingress initial D max buf min auth co now c d evs run T I Iv Nw F Tc.
  destruct (way token ingress initial D max buf min auth co T evs c d now I Iv Nw F Tc) as (more & M1 & _ & M3 & M4 & M5 & M6). exists more. cbv zeta. auto.
Qed.

(*@prop And then the application has obtained, in the order of publication, each once, exactly: the messages that were due to
    the connection already, and, of those that the publisher's session had not looked at, the ones its filter lets
    through -- except those that had already been pushed out of the queue of session_buffer_size messages. *)
Lemma C79_all_obtained_pf :
  forall (token : option bytes) (ingress initial : N) (D : decompressors) (max : option N) (buf min : N)
         (auth : option (bytes -> bool)) (co : option compressor) (now c d : N) (evs : list zev),
  let run := z_run token ingress initial D max buf min auth co in
  let z := run evs in
  (forall t, token = Some t -> blen t < 2 ^ 32) -> 0 < ingress -> (forall cm, co = Some cm -> inverse_of D cm) -> now < 2 ^ 64 ->
  Forall (input_fits co) evs -> in_touch z c d ->
  (forall t p, In (t, p) (announced evs) -> utf8 t) -> all_published (z_slog z) -> nothing_refused c (z_clog z) ->
  exists more places, let z' := run (evs ++ more) in
    Forall (helpful now c d) more /\ (length more <= work_to_do z c d)%nat /\ all_done z' c d /\
    StronglySorted N.lt places /\ Forall2 (fun i q => nth_error (announced evs) (N.to_nat i) = Some q) places (obtained c (z_clog z')) /\
    forall i, In i places <->
      due d (z_slog z) i \/
      (first_unread buf z d <= i /\
       exists t p, nth_error (announced evs) (N.to_nat i) = Some (t, p) /\ trie_contains (trie_run (ops_of d (z_slog z))) t = true).
Proof.
  intros token ingress initial D max buf min auth co now c d evs run z T I Iv Nw F Tc U Ap Nr.
  destruct (all_obtained token ingress initial D max buf min auth co T evs c d now I Iv Nw F Tc U Ap Nr) as (more & M1 & _ & M3 & _ & _ & M6 & _ & _ & is & I1 & I2 & I3).
  exists more, is. cbv zeta. auto 10.
Qed.

(*@prop C80: messages published when subscriber and publisher are at rest, no more of them than the queue holds, are obtained by
    the application, if everybody does his job: exactly those that the filter of the connection lets through, in the order of
    publication. *)
Lemma C80_published_at_rest_arrives_pf :
  forall (token : option bytes) (ingress initial : N) (D : decompressors) (max : option N) (buf min : N)
         (auth : option (bytes -> bool)) (co : option compressor) (now c d : N) (evs : list zev) (msgs : list (bytes * bytes)),
  let run := z_run token ingress initial D max buf min auth co in
  let z := run evs in
  (forall t, token = Some t -> blen t < 2 ^ 32) -> 0 < ingress -> (forall cm, co = Some cm -> inverse_of D cm) -> now < 2 ^ 64 ->
  Forall (input_fits co) evs -> in_touch z c d -> all_done z c d ->
  (forall t p, In (t, p) (announced evs) -> utf8 t) -> all_published (z_slog z) -> nothing_refused c (z_clog z) ->
  blen msgs <= bcast_cap buf ->
  (forall t p, In (t, p) msgs -> utf8 t /\ blen t < 2 ^ 16 /\ payload_fits co p /\ publish_outgoing min co p <> None) ->
  exists more, let z' := run (evs ++ zpubs msgs ++ more) in
    Forall (helpful now c d) more /\ in_touch z' c d /\ all_done z' c d /\
    obtained c (z_clog z') = obtained c (z_clog z) ++ filter (fun q => trie_contains (trie_run (ops_of d (z_slog z))) (fst q)) msgs.
Proof.
  intros token ingress initial D max buf min auth co now c d evs msgs run z T I Iv Nw F Tc Dn U Ap Nr Bm Hm.
  destruct (batch token ingress initial D max buf min auth co T evs c d now msgs I Iv Nw F Tc Dn U Ap Nr Bm Hm) as (more & M1 & M2 & M3 & M4 & M5 & M6 & M7 & M8).
  exists more. cbv zeta. auto.
Qed.

Lemma command_then token ingress initial D max buf min auth co now c d evs f sc cmd tops op :
  let run := z_run token ingress initial D max buf min auth co in
  let z := run evs in
  (forall t, token = Some t -> blen t < 2 ^ 32) -> 0 < ingress -> (forall cm, co = Some cm -> inverse_of D cm) -> now < 2 ^ 64 ->
  Forall (input_fits co) evs -> in_touch z c d -> all_done z c d ->
  (forall t p, In (t, p) (announced evs) -> utf8 t) -> all_published (z_slog z) -> nothing_refused c (z_clog z) -> sb_cmdq (z_c z) = [] ->
  asks initial f sc cmd (z_c z) tops -> input_fits co (ZApi f) -> match cmd with SSub t => TSub (from_utf8_lossy t) | SUnsub t => TUnsub (from_utf8_lossy t) end = op ->
  exists more, let evs1 := evs ++ [ZApi f; ZCommand] ++ more in let z1 := run evs1 in
    Forall (helpful now c d) more /\ in_touch z1 c d /\ all_done z1 c d /\ sb_topics (z_c z1) = tops /\
    (exists o, z_clog z1 = z_clog z ++ UApi f AOk :: o) /\ obtained c (z_clog z1) = obtained c (z_clog z) /\
    ops_of d (z_slog z1) = ops_of d (z_slog z) ++ [op] /\
    forall msgs, blen msgs <= bcast_cap buf ->
      (forall t p, In (t, p) msgs -> utf8 t /\ blen t < 2 ^ 16 /\ payload_fits co p /\ publish_outgoing min co p <> None) ->
      exists more2, Forall (helpful now c d) more2 /\ let z2 := run (evs1 ++ zpubs msgs ++ more2) in in_touch z2 c d /\ all_done z2 c d /\
        obtained c (z_clog z2) = obtained c (z_clog z) ++ filter (fun q => trie_contains (trie_run (ops_of d (z_slog z) ++ [op])) (fst q)) msgs.
Proof.
  intros run z T I Iv Nw F Tc Dn U Ap Nr Cq As Ff Eop.
  destruct (command_way token ingress initial D max buf min auth co T evs c d now f sc cmd tops I Iv Nw F Tc Dn U Ap Nr Cq As Ff) as (more & M1 & M2 & M3 & M4 & M5 & M6 & M7 & M8 & M9 & M10 & M11).
  rewrite Eop in M11. exists more. cbv zeta. split; [exact M1|]. split; [exact M3|]. split; [exact M4|]. split; [exact M7|]. split; [exact M9|]. split; [exact M10|]. split; [exact M11|].
  intros msgs Bm Hm.
  assert (F1 : Forall (input_fits co) (evs ++ [ZApi f; ZCommand] ++ more)). { apply Forall_app. split; [exact F|]. constructor; [exact Ff|]. constructor; [exact Logic.I|exact M2]. }
  assert (U1 : forall t p, In (t, p) (announced (evs ++ [ZApi f; ZCommand] ++ more)) -> utf8 t).
  { rewrite !announced_app, (helpful_announced _ _ _ _ M1). cbn [announced flat_map app]. rewrite app_nil_r. exact U. }
  destruct (batch token ingress initial D max buf min auth co T _ c d now msgs I Iv Nw F1 M3 M4 U1 M5 M6 Bm Hm) as (more2 & B1 & B2 & B3 & B4 & B5 & B6 & B7 & B8).
  exists more2. split; [exact B1|]. split; [exact B2|]. split; [exact B3|]. etransitivity; [exact B8|]. subst z run. cbv zeta in *. rewrite M10, M11. reflexivity.
Qed.

(*@prop A new subscription takes effect: if the application subscribes, the driver looks at the command, and everybody does his
    job, then publisher and subscriber come to rest again with the publisher's filter for this connection extended by this
    topic.  Then messages published, not more than the queue holds, are obtained in order: exactly those that the filter lets
    through, so each message of the topic (if no `>` is used in it and none inside another subscription), and only
    messages that match a topic subscribed to. *)
Lemma C80_subscription_takes_effect_pf :
  forall (token : option bytes) (ingress initial : N) (D : decompressors) (max : option N) (buf min : N)
         (auth : option (bytes -> bool)) (co : option compressor) (now c d : N) (evs : list zev) (b : bool) (t : bytes),
  let run := z_run token ingress initial D max buf min auth co in
  let z := run evs in
  let ops := ops_of d (z_slog z) in
  (forall t, token = Some t -> blen t < 2 ^ 32) -> 0 < ingress -> (forall cm, co = Some cm -> inverse_of D cm) -> now < 2 ^ 64 ->
  Forall (input_fits co) evs -> in_touch z c d -> all_done z c d ->
  (forall t p, In (t, p) (announced evs) -> utf8 t) -> all_published (z_slog z) -> nothing_refused c (z_clog z) -> sb_cmdq (z_c z) = [] ->
  utf8 t -> blen t + 10 < 2 ^ 16 -> starts_with MSG t = false -> ~ In t (sb_topics (z_c z)) ->
  exists more, let evs1 := evs ++ [ZApi (ApSub b t); ZCommand] ++ more in let z1 := run evs1 in
    Forall (helpful now c d) more /\ in_touch z1 c d /\ all_done z1 c d /\
    (exists o, z_clog z1 = z_clog z ++ UApi (ApSub b t) AOk :: o) /\
    (forall u, In u (sb_topics (z_c z1)) <-> u = t \/ In u (sb_topics (z_c z))) /\
    obtained c (z_clog z1) = obtained c (z_clog z) /\ ops_of d (z_slog z1) = ops ++ [TSub t] /\
    forall msgs, blen msgs <= bcast_cap buf ->
      (forall t p, In (t, p) msgs -> utf8 t /\ blen t < 2 ^ 16 /\ payload_fits co p /\ publish_outgoing min co p <> None) ->
      exists more2, let z2 := run (evs1 ++ zpubs msgs ++ more2) in let got := filter (fun q => trie_contains (trie_run (ops ++ [TSub t])) (fst q)) msgs in
        Forall (helpful now c d) more2 /\ in_touch z2 c d /\ all_done z2 c d /\
        obtained c (z_clog z2) = obtained c (z_clog z) ++ got /\
        (subs_all gt_only_last (ops ++ [TSub t]) ->
           (forall ts p, tokens_of t ts -> ~ In gt ts -> In (t, p) msgs -> In (t, p) got) /\
           (forall u p us, In (u, p) got -> tokens_of u us -> exists s ss, held (ops ++ [TSub t]) s /\ tokens_of s ss /\ matches ss us)).
Proof.
  intros token ingress initial D max buf min auth co now c d evs b t run z ops T I Iv Nw F Tc Dn U Ap Nr Cq Ut Bt Sw Nt.
  destruct (command_then token ingress initial D max buf min auth co now c d evs (ApSub b t) (CSub t) (SSub t) (sins t (sb_topics (z_c z))) (TSub t) T I Iv Nw F Tc Dn U Ap Nr Cq (asks_sub initial b t (z_c z) Sw Nt) Bt)
    as (more & M1 & M2 & M3 & M4 & M5 & M6 & M7 & M8). { cbn. rewrite Utf8P.lossy_id by exact Ut. reflexivity. }
  exists more. cbv zeta. split; [exact M1|]. split; [exact M2|]. split; [exact M3|]. split; [exact M5|]. split.
  { intros u. subst run. rewrite M4. unfold sins. destruct (smem t (sb_topics (z_c z))) eqn:E; [apply smem_true in E; contradiction|]. rewrite in_app_iff. cbn [In]. intuition congruence. }
  split; [exact M6|]. split; [exact M7|]. intros msgs Bm Hm. destruct (M8 msgs Bm Hm) as (more2 & B1 & B2 & B3 & B4). exists more2. split; [exact B1|]. split; [exact B2|]. split; [exact B3|]. split; [exact B4|].
  intros Sa. split.
  - intros ts p Ht Hg Hi. apply filter_In. split; [exact Hi|]. cbn [fst]. eapply T_Trie.C30_exact_topic_always_forwarded_pf; eauto. apply held_now.
  - intros u p us Hi Hu. apply filter_In in Hi. destruct Hi as [_ Hi]. exact (T_Trie.C29_no_forward_without_match_pf _ _ _ Sa Hu Hi).
Qed.

(*@prop And so does the end of a subscription: after unsubscribe, when everybody has done his job, the filter is that of the
    remaining subscriptions, and only messages that match one of them are obtained. *)
Lemma C80_unsubscribe_takes_effect_pf :
  forall (token : option bytes) (ingress initial : N) (D : decompressors) (max : option N) (buf min : N)
         (auth : option (bytes -> bool)) (co : option compressor) (now c d : N) (evs : list zev) (b : bool) (t : bytes),
  let run := z_run token ingress initial D max buf min auth co in
  let z := run evs in
  let ops := ops_of d (z_slog z) in
  (forall t, token = Some t -> blen t < 2 ^ 32) -> 0 < ingress -> (forall cm, co = Some cm -> inverse_of D cm) -> now < 2 ^ 64 ->
  Forall (input_fits co) evs -> in_touch z c d -> all_done z c d ->
  (forall t p, In (t, p) (announced evs) -> utf8 t) -> all_published (z_slog z) -> nothing_refused c (z_clog z) -> sb_cmdq (z_c z) = [] ->
  utf8 t -> blen t + 10 < 2 ^ 16 -> starts_with MSG t = false -> In t (sb_topics (z_c z)) ->
  exists more, let evs1 := evs ++ [ZApi (ApUnsub b t); ZCommand] ++ more in let z1 := run evs1 in
    Forall (helpful now c d) more /\ in_touch z1 c d /\ all_done z1 c d /\
    (exists o, z_clog z1 = z_clog z ++ UApi (ApUnsub b t) AOk :: o) /\
    (forall u, In u (sb_topics (z_c z1)) <-> u <> t /\ In u (sb_topics (z_c z))) /\
    obtained c (z_clog z1) = obtained c (z_clog z) /\ ops_of d (z_slog z1) = ops ++ [TUnsub t] /\
    forall msgs, blen msgs <= bcast_cap buf ->
      (forall t p, In (t, p) msgs -> utf8 t /\ blen t < 2 ^ 16 /\ payload_fits co p /\ publish_outgoing min co p <> None) ->
      exists more2, let z2 := run (evs1 ++ zpubs msgs ++ more2) in let got := filter (fun q => trie_contains (trie_run (ops ++ [TUnsub t])) (fst q)) msgs in
        Forall (helpful now c d) more2 /\ in_touch z2 c d /\ all_done z2 c d /\
        obtained c (z_clog z2) = obtained c (z_clog z) ++ got /\
        (subs_all gt_only_last ops ->
           (forall u p us, In (u, p) got -> tokens_of u us -> exists s ss, s <> t /\ held ops s /\ tokens_of s ss /\ matches ss us)).
Proof.
  intros token ingress initial D max buf min auth co now c d evs b t run z ops T I Iv Nw F Tc Dn U Ap Nr Cq Ut Bt Sw Nt.
  destruct (command_then token ingress initial D max buf min auth co now c d evs (ApUnsub b t) (CUnsub t) (SUnsub t) (sdel t (sb_topics (z_c z))) (TUnsub t) T I Iv Nw F Tc Dn U Ap Nr Cq (asks_unsub initial b t (z_c z) Sw Nt) Bt)
    as (more & M1 & M2 & M3 & M4 & M5 & M6 & M7 & M8). { cbn. rewrite Utf8P.lossy_id by exact Ut. reflexivity. }
  exists more. cbv zeta. split; [exact M1|]. split; [exact M2|]. split; [exact M3|]. split; [exact M5|]. split.
  { intros u. subst run. rewrite M4. unfold sdel. split; [intros H; apply in_remove in H; tauto|intros [H1 H2]; apply in_in_remove; assumption]. }
  split; [exact M6|]. split; [exact M7|]. intros msgs Bm Hm. destruct (M8 msgs Bm Hm) as (more2 & B1 & B2 & B3 & B4). exists more2. split; [exact B1|]. split; [exact B2|]. split; [exact B3|]. split; [exact B4|].
  intros Sa u p us Hi Hu. apply filter_In in Hi. destruct Hi as [_ Hi].
  assert (Sa' : subs_all gt_only_last (ops ++ [TUnsub t])). { intros s ss Hs Hss. apply in_app_or in Hs. destruct Hs as [Hs|[Hs|[]]]; [exact (Sa _ _ Hs Hss)|discriminate]. }
  destruct (T_Trie.C29_no_forward_without_match_pf _ _ _ Sa' Hu Hi) as (s & ss & H1 & H2 & H3). exists s, ss.
  assert (K : s <> t /\ held ops s). { inversion H1 as [o u0 E|o u0 u1 Ho E|o u0 u1 Ho Ne E]; apply app_inj_tail in E; destruct E as [E1 E2]; try discriminate. injection E2 as ->. subst. auto. }
  tauto.
Qed.

Ltac nope H := cbn in H; repeat (destruct H as [H|H]; [discriminate|]); destruct H.
Ltac ascii := match goal with |- utf8 ?u => exists (map Byte.to_N u); split; [repeat constructor; left; vm_compute; reflexivity|vm_compute; reflexivity] end.
Ltac fits_msg := split; [vm_compute; reflexivity|]; split; [vm_compute; reflexivity|];
  let cm := fresh in let z := fresh in let H := fresh in let K := fresh in
  intros cm z H K; injection H as <-; cbn [zx_co cmp_fun] in K; injection K as <-; vm_compute; reflexivity.
Ltac fits := match goal with
  | |- input_fits _ (ZPublish _ _) => fits_msg | |- input_fits _ (ZTryPublish _ _) => fits_msg
  | |- input_fits _ (ZSub _ _ _) => vm_compute; reflexivity | |- input_fits _ (ZPub _ _ _) => vm_compute; reflexivity
  | |- input_fits _ (ZApi (ApSub _ _)) => vm_compute; reflexivity | |- _ => exact Logic.I end.
Lemma nx_fits : Forall (input_fits (Some zx_co)) zx_evs.
Proof. unfold zx_evs. repeat (apply Forall_cons; [unfold zx_s, zx_p; fits|]). apply Forall_nil. Qed.
Lemma nx_inv : forall cm, Some zx_co = Some cm -> inverse_of zx_D cm.
Proof. intros cm H. injection H as <-. intros p q H. cbn in H |- *. injection H as <-. reflexivity. Qed.

Tactic Notation "comp" constr(t) ident(E) := let v := eval vm_compute in t in assert (E : t = v) by (vm_compute; reflexivity).
Tactic Notation "touch" constr(z) ident(E1) ident(E2) ident(E3) ident(E4) ident(E5) ident(E6) ident(E7) ident(E8) ident(E9) ident(E10) := comp (sb_dropped (z_c z)) E1; comp (pb_closed (z_s z)) E2; comp (mget 0 (sb_conns (z_c z))) E3; comp (sb_pubs (z_c z)) E4; comp (mget 0 (pb_sess (z_s z))) E5;
  comp (z_ccids z) E6; comp (z_scids z) E7; comp (mget 0 (z_links z)) E8; comp (sb_out (z_c z)) E9; comp (blen (pb_hist (z_s z))) E10.
Ltac in_touch_now := split; [assumption|]; split; [assumption|]; split; [eexists; split; [reflexivity|split; reflexivity]|]; split; [eexists; eassumption|];
    do 2 eexists; split; [reflexivity|]; split; [reflexivity|]; split; [eassumption|]; repeat split.
Lemma nx_refused z l : z_clog z = l -> forallb (fun o => match o with URecv k _ _ r => match r with TSent => true | _ => false end | UDeliver k _ _ _ r => match r with TSent => true | _ => false end | UClosed _ _ | UDropped => false | _ => true end) l = true -> nothing_refused 0 (z_clog z).
Proof.
  intros -> H. rewrite forallb_forall in H. unfold nothing_refused, driver_closed. split; [|split; [|split]].
  - intros m now r K. specialize (H _ K). cbn in H. destruct r; congruence.
  - intros m a p r K. specialize (H _ K). cbn in H. destruct r; congruence.
  - intros [lost K]. specialize (H _ K). discriminate.
  - intros K. specialize (H _ K). discriminate.
Qed.
(*@example The run of C54, up to the publishing: three messages were published, none looked at.  Then the whole of it: at rest. *)
Lemma C79_example_pf :
  let run := z_run (Some zx_tok) 4 1000 zx_D None 8 0 (Some zx_auth) (Some zx_co) in
  let evs := firstn 17 zx_evs in
  (forall cm, Some zx_co = Some cm -> inverse_of zx_D cm) /\ Forall (input_fits (Some zx_co)) evs /\ in_touch (run evs) 0 0 /\
  (forall t p, In (t, p) (announced evs) -> utf8 t) /\ all_published (z_slog (run evs)) /\ nothing_refused 0 (z_clog (run evs)) /\
  work_to_do (run evs) 0 0 = 15%nat /\ first_unread 8 (run evs) 0 = 0 /\ obtained 0 (z_clog (run evs)) = [] /\
  in_touch (run zx_evs) 0 0 /\ all_done (run zx_evs) 0 0 /\ Forall (helpful 5 0 0) (skipn 17 zx_evs) /\
  obtained 0 (z_clog (run zx_evs)) = [(zx_ab, [x01]); (zx_cb, [x03])].
Proof.
  cbv zeta. set (z := z_run (Some zx_tok) 4 1000 zx_D None 8 0 (Some zx_auth) (Some zx_co) (firstn 17 zx_evs)).
  set (z' := z_run (Some zx_tok) 4 1000 zx_D None 8 0 (Some zx_auth) (Some zx_co) zx_evs).
  split; [exact nx_inv|]. split. { pose proof nx_fits as F. rewrite <- (firstn_skipn 17 zx_evs) in F. apply Forall_app in F. apply F. }
  split. { touch z E1 E2 E3 E4 E5 E6 E7 E8 E9 E10. clearbody z. unfold in_touch. rewrite E3, E4, E6, E7. in_touch_now. }
  split. { intros t p H. cbn [announced zx_evs firstn flat_map app In] in H. repeat (destruct H as [H|H]; [injection H as <- <-; ascii|]); contradiction. }
  split. { comp (z_slog z) Es. rewrite Es. split; intros H; cbn [In] in H; intuition discriminate. }
  split. { eapply nx_refused; vm_compute; reflexivity. }
  split; [vm_compute; reflexivity|]. split; [vm_compute; reflexivity|]. split; [vm_compute; reflexivity|].
  split. { touch z' E1 E2 E3 E4 E5 E6 E7 E8 E9 E10. clearbody z'. unfold in_touch. rewrite E3, E4, E6, E7. in_touch_now. }
  split. { touch z' E1 E2 E3 E4 E5 E6 E7 E8 E9 E10. clearbody z'. unfold all_done. rewrite E3, E5, E6, E7, E9, E10. split; [reflexivity|]. split; [eexists; repeat split|]. split; [eexists; repeat split|]. do 2 eexists. split; [reflexivity|]. split; [reflexivity|]. split; [exact E8|]. repeat split. }
  split; [|vm_compute; reflexivity].
  cbn [skipn zx_evs]. unfold zx_s, zx_p.
  assert (O : forall a, In a [SaOk; SaOk; SaOk] -> a = SaOk) by (intros a H; cbn in H; intuition congruence).
  repeat (apply Forall_cons; [first [exact Logic.I | split; [reflexivity|]; split; [reflexivity|]; split; [reflexivity|]; split; [exact O|] | split; [reflexivity|]; split; [reflexivity|]; split; [reflexivity|]; split; [reflexivity|]; split; [reflexivity|]; split; [reflexivity|]];
    try (intros x H; cbn [In] in H; repeat (destruct H as [H|H]; [subst x; match goal with |- exists b t, IoData ?l = _ => exists (hd x00 l), (tl l); vm_compute; reflexivity end|]); contradiction)|]).
  apply Forall_nil.
Qed.

(*@example At the end of that run the application subscribes to "d" (and ends its subscription of "*.b"), and "d" and "a.b" are published. *)
Lemma C80_example_pf :
  let run := z_run (Some zx_tok) 4 1000 zx_D None 8 0 (Some zx_auth) (Some zx_co) in
  let z := run zx_evs in
  let msgs := [([x64], [x09]); (zx_ab, [x0a])] in
  (forall cm, Some zx_co = Some cm -> inverse_of zx_D cm) /\ Forall (input_fits (Some zx_co)) zx_evs /\ in_touch z 0 0 /\ all_done z 0 0 /\
  (forall t p, In (t, p) (announced zx_evs) -> utf8 t) /\ all_published (z_slog z) /\ nothing_refused 0 (z_clog z) /\ sb_cmdq (z_c z) = [] /\
  utf8 [x64] /\ starts_with MSG [x64] = false /\ ~ In [x64] (sb_topics (z_c z)) /\
  utf8 zx_star /\ starts_with MSG zx_star = false /\ In zx_star (sb_topics (z_c z)) /\
  blen msgs <= bcast_cap 8 /\ (forall t p, In (t, p) msgs -> utf8 t /\ blen t < 2 ^ 16 /\ payload_fits (Some zx_co) p /\ publish_outgoing 0 (Some zx_co) p <> None) /\
  ops_of 0 (z_slog z) = [TSub zx_star] /\
  filter (fun q => trie_contains (trie_run ([TSub zx_star] ++ [TSub [x64]])) (fst q)) msgs = msgs /\
  filter (fun q => trie_contains (trie_run ([TSub zx_star] ++ [TUnsub zx_star])) (fst q)) msgs = [] /\
  filter (fun q => trie_contains (trie_run [TSub zx_star]) (fst q)) msgs = [(zx_ab, [x0a])].
Proof.
  cbv zeta. destruct C79_example_pf as (A1 & _ & _ & _ & _ & _ & _ & _ & _ & A2 & A3 & _ & _). cbv zeta in A2, A3.
  set (z := z_run (Some zx_tok) 4 1000 zx_D None 8 0 (Some zx_auth) (Some zx_co) zx_evs) in *.
  split; [exact A1|]. split; [exact nx_fits|]. split; [exact A2|]. split; [exact A3|]. clear A1 A2 A3.
  split. { intros t p H. cbn [announced zx_evs flat_map app In] in H. repeat (destruct H as [H|H]; [injection H as <- <-; ascii|]); contradiction. }
  split. { comp (z_slog z) Es. rewrite Es. split; intros H; cbn [In] in H; intuition discriminate. }
  split. { eapply nx_refused; vm_compute; reflexivity. }
  split; [vm_compute; reflexivity|]. split; [ascii|]. split; [reflexivity|].
  assert (Et : sb_topics (z_c z) = [zx_star]) by (vm_compute; reflexivity). rewrite Et.
  split. { intros [H|[]]; discriminate. } split; [ascii|]. split; [reflexivity|]. split; [left; reflexivity|]. split; [vm_compute; discriminate|].
  split. { intros t p [H|[H|[]]]; injection H as <- <-; (split; [ascii|]; split; [vm_compute; reflexivity|]; split; [|discriminate]; split; [vm_compute; reflexivity|]);
    intros cm q H K; injection H as <-; cbn [zx_co cmp_fun] in K; injection K as <-; vm_compute; reflexivity. }
  repeat split; vm_compute; reflexivity.
Qed.
