(** Joint model of a subscriber and a publisher socket: the way back to a connection (C86). *)
From Coq Require Import List NArith Permutation Sorting.Sorted Init.Byte.
From Verif Require Import Model.Base Model.Map Model.Framed Model.WirePubSub Model.WireAuth Model.Compression Model.Handshake Model.JoinMap Model.Backoff Model.Trie Model.PubDriver Model.SubDriver Model.Net Model.PubSubNet
  Spec.CompressSpec Spec.Utf8Spec Spec.Topics Spec.PubSpec Spec.SubSpec Spec.NetSpec2 Spec.NetSpec6 Spec.NetSpec9.
Import ListNotations.
Open Scope N_scope.
(*HEADEND*)
From Verif Require Import Model.Utf8 Proofs.MapP Proofs.TrieP Proofs.PubSubNetP14 Proofs.PubSubNetP20 Proofs.PubSubNetP21.
From Verif Require Proofs.Utf8P Proofs.T_Trie.
Local Open Scope N_scope.

(*@prop C86: whatever happened before, a subscriber that has no connection to a publisher it was told to connect to (attempts have
    failed, or the session has ended) and has a retry left, or an attempt under way, can get a new one, if the publisher lets it in: within 8
    steps, the last of which is at the latest when the back-off's timer says so.  The new session is told the topics the
    subscriber is subscribed to (the first 64, in the order in which the driver goes through them), whenever they were
    subscribed; the publisher's new session starts with the messages published from now on.  Everything else is as before:
    the topics, the calls and messages in the queues, the other publishers, connections and sessions. *)
Lemma C86_way_back_pf :
  forall (token : option bytes) (ingress initial : N) (D : decompressors) (max : option N) (buf min : N)
         (auth : option (bytes -> bool)) (co : option compressor) (now : N) (order : list bytes) (evs : list zev) (a : addr) (b : backoff),
  let run := z_run token ingress initial D max buf min auth co in
  let z := run evs in let c := sb_next (z_c z) in let d := pb_next_cid (z_s z) in
  (forall t, token = Some t -> blen t < 2 ^ 32) ->
  can_come_back token z a b -> sub_let_in token auth -> pub_has_room max (z_s z) -> sb_dropped (z_c z) = false -> pb_closed (z_s z) = false ->
  exists more ts, let z' := run (evs ++ more) in
    (length more <= 8)%nat /\ Forall (coming_back a now (next_dial b now) order) more /\ Sorted N.le (dial_times more) /\
    in_touch z' c d /\ back_again a c d ts z z' /\
    (exists o, z_clog z' = z_clog z ++ o /\ Forall (dialling a c) o) /\ (exists o, z_slog z' = z_slog z ++ o /\ Forall (letting_in d) o).
Proof.
  intros token ingress initial D max buf min auth co now order evs a b run z c d T Can Li Rm Dr Cl.
  destruct (way_back token ingress initial D max buf min auth co evs a b now order T Can Li Rm Dr Cl) as (more & M). exists more, (arrange order (sb_topics (z_c z))). exact M.
Qed.

(*@prop So subscriptions survive the loss of a connection: when both sides have done their work (at most 3 further steps for each
    topic, and one for each message the application has not taken), they are at rest with the publisher's filter for the
    new connection made of exactly these topics, nothing obtained on it yet, and messages published then, not more
    than the queue holds, are obtained in order: exactly those that the filter lets through.  So with at most 64 topics, each
    message of a subscribed topic, and only messages that match one. *)
Lemma C86_subscriptions_restored_pf :
  forall (token : option bytes) (ingress initial : N) (D : decompressors) (max : option N) (buf min : N)
         (auth : option (bytes -> bool)) (co : option compressor) (now later : N) (order : list bytes) (evs : list zev) (a : addr) (b : backoff),
  let run := z_run token ingress initial D max buf min auth co in
  let z := run evs in let c := sb_next (z_c z) in let d := pb_next_cid (z_s z) in
  (forall t, token = Some t -> blen t < 2 ^ 32) -> 0 < ingress -> (forall cm, co = Some cm -> inverse_of D cm) -> later < 2 ^ 64 ->
  Forall (input_fits co) evs -> (forall t p, In (t, p) (announced evs) -> utf8 t) -> all_published (z_slog z) ->
  (forall t, In t (sb_topics (z_c z)) -> utf8 t) ->
  can_come_back token z a b -> sub_let_in token auth -> pub_has_room max (z_s z) -> sb_dropped (z_c z) = false -> pb_closed (z_s z) = false ->
  exists more more2 ts, let evs2 := evs ++ more ++ more2 in let z2 := run evs2 in let ops := map TSub (firstn 64 ts) in
    Forall (coming_back a now (next_dial b now) order) more /\ Sorted N.le (dial_times more) /\ Forall (helpful later c d) more2 /\
    (length more <= 8 /\ length more2 <= length (sb_out (z_c z)) + 3 * length (sb_topics (z_c z)))%nat /\
    Permutation ts (sb_topics (z_c z)) /\ sb_topics (z_c z2) = sb_topics (z_c z) /\
    in_touch z2 c d /\ all_done z2 c d /\ obtained c (z_clog z2) = [] /\ ops_of d (z_slog z2) = ops /\
    forall msgs, blen msgs <= bcast_cap buf ->
      (forall t p, In (t, p) msgs -> utf8 t /\ blen t < 2 ^ 16 /\ payload_fits co p /\ publish_outgoing min co p <> None) ->
      exists more3, let z3 := run (evs2 ++ zpubs msgs ++ more3) in let got := filter (fun q => trie_contains (trie_run ops) (fst q)) msgs in
        Forall (helpful later c d) more3 /\ in_touch z3 c d /\ all_done z3 c d /\ obtained c (z_clog z3) = got /\
        ((length (sb_topics (z_c z)) <= 64)%nat -> (forall t us, In t (sb_topics (z_c z)) -> tokens_of t us -> gt_only_last us) ->
           (forall t us p, In t (sb_topics (z_c z)) -> tokens_of t us -> ~ In gt us -> In (t, p) msgs -> In (t, p) got) /\
           (forall u p us, In (u, p) got -> tokens_of u us -> exists s ss, In s (sb_topics (z_c z)) /\ tokens_of s ss /\ matches ss us)).
Proof.
  intros token ingress initial D max buf min auth co now later order evs a b run z c d T I Iv Nw F U Ap Ut Can Li Rm Dr Cl.
  destruct (restored token ingress initial D max buf min auth co T evs a b now later order I Iv Nw F U Ap Can Li Rm Dr Cl) as (more & more2 & R1 & R2 & R3 & R4 & R5 & R6 & R7 & R8 & R9 & R10 & R11 & R12 & R13 & R14 & R15).
  subst c d z run. cbv zeta in *. match type of R6 with Permutation ?t _ => set (ts := t) in * end.
  assert (Eo : map (fun t => TSub (from_utf8_lossy t)) (firstn 64 ts) = map TSub (firstn 64 ts)).
  { apply map_ext_in. intros t Ht. rewrite Utf8P.lossy_id; [reflexivity|]. apply Ut. eapply Permutation_in; [exact R6|]. rewrite <- (firstn_skipn 64 ts). apply in_or_app. now left. }
  rewrite Eo in R11. exists more, more2, ts. cbv zeta. split; [exact R2|]. split; [exact R3|]. split; [exact R5|].
  split. { split; [exact R1|]. rewrite firstn_length in R4. pose proof (Permutation_length R6). lia. }
  split; [exact R6|]. split; [exact R7|]. split; [exact R8|]. split; [exact R9|]. split; [exact R10|]. split; [exact R11|].
  intros msgs Bm Hm.
  assert (U2 : forall t p, In (t, p) (announced (evs ++ more ++ more2)) -> utf8 t) by (rewrite R13; exact U).
  destruct (batch token ingress initial D max buf min auth co T _ _ _ later msgs I Iv Nw R12 R8 R9 U2 R14 R15 Bm Hm) as (more3 & B1 & B2 & B3 & B4 & B5 & B6 & B7 & B8).
  exists more3. split; [exact B1|]. split; [exact B2|]. split; [exact B3|]. rewrite R10, R11 in B8. split; [exact B8|].
  intros L64 Gl. assert (Ef : firstn 64 ts = ts) by (apply firstn_all2; pose proof (Permutation_length R6); lia). rewrite Ef.
  assert (Hl : forall t, held (map TSub ts) t <-> In t ts).
  { clear. intros t. induction ts as [|t' l IH] using rev_ind; [split; [intros H; destruct (held_nil _ H)|intros []]|]. rewrite map_app. cbn [map]. rewrite held_inv_sub, IH, in_app_iff. cbn [In]. intuition congruence. }
  assert (Sa : subs_all gt_only_last (map TSub ts)). { intros t us Hi Hu. apply in_map_iff in Hi. destruct Hi as (t' & [= ->] & Hi). eapply Gl; [|exact Hu]. eapply Permutation_in; [exact R6|exact Hi]. }
  split.
  - intros t us p Ht Hu Hg Hi. apply filter_In. split; [exact Hi|]. cbn [fst]. eapply T_Trie.C30_exact_topic_always_forwarded_pf; eauto. apply Hl. eapply Permutation_in; [symmetry; exact R6|exact Ht].
  - intros u p us Hi Hu. apply filter_In in Hi. destruct Hi as [_ Hi]. destruct (T_Trie.C29_no_forward_without_match_pf _ _ _ Sa Hu Hi) as (s & ss & H1 & H2 & H3). exists s, ss. split; [|auto]. apply Hl in H1. eapply Permutation_in; [exact R6|exact H1].
Qed.

Tactic Notation "comp" constr(t) ident(E) := let v := eval vm_compute in t in assert (E : t = v) by (vm_compute; reflexivity).
Ltac ascii := match goal with |- utf8 ?u => exists (map Byte.to_N u); split; [repeat constructor; left; vm_compute; reflexivity|vm_compute; reflexivity] end.
Ltac fits_msg := split; [vm_compute; reflexivity|]; split; [vm_compute; reflexivity|];
  let cm := fresh in let z := fresh in let H := fresh in let K := fresh in
  intros cm z H K; injection H as <-; cbn [zx_co cmp_fun] in K; injection K as <-; vm_compute; reflexivity.
(*@example In the first run, the first attempt to connect has failed and the back-off's timer is armed, two topics are subscribed and a
    message was published; the next attempt starts at the latest at time 1010.  In the second run the subscriber was
    connected and has obtained two messages (C79), then the application disconnected, subscribed to another topic and connected
    again; the attempt is under way. *)
Lemma C86_example_pf :
  let run := z_run (Some zx_tok) 4 1000 zx_D None 8 0 (Some zx_auth) (Some zx_co) in
  let evs1 := [ZApi (ApSub true zx_star); ZApi (ApConnect true (Some sx_addr)); ZCommand; ZCommand; ZJoin 0 JFail []; ZEntry sx_addr 10;
               ZApi (ApSub true [x64]); ZCommand; ZPublish zx_ab [x01]] in
  let evs2 := zx_evs ++ [ZApi (ApDisconnect true (Some sx_addr)); ZCommand; ZApi (ApSub true [x64]); ZCommand; ZApi (ApConnect true (Some sx_addr)); ZCommand] in
  (forall cm, Some zx_co = Some cm -> inverse_of zx_D cm) /\ sub_let_in (Some zx_tok) (Some zx_auth) /\
  (forall z, pub_has_room None z) /\
  (let z := run evs1 in exists b, can_come_back (Some zx_tok) z sx_addr b /\ next_dial b 500 = 1010 /\
     sb_dropped (z_c z) = false /\ pb_closed (z_s z) = false /\ Forall (input_fits (Some zx_co)) evs1 /\
     (forall t p, In (t, p) (announced evs1) -> utf8 t) /\ all_published (z_slog z) /\
     sb_topics (z_c z) = [zx_star; [x64]] /\ (forall t, In t (sb_topics (z_c z)) -> utf8 t)) /\
  (let z := run evs2 in exists b, can_come_back (Some zx_tok) z sx_addr b /\ sb_dropped (z_c z) = false /\ pb_closed (z_s z) = false /\
     sb_topics (z_c z) = [zx_star; [x64]] /\ sb_next (z_c z) = 1 /\ pb_next_cid (z_s z) = 1 /\ obtained 0 (z_clog z) = [(zx_ab, [x01]); (zx_cb, [x03])]).
Proof.
  cbv zeta. split; [intros cm H; injection H as <-; intros p q H; cbn in H |- *; injection H as <-; reflexivity|]. split; [reflexivity|]. split; [intros z; exact Logic.I|]. split.
  - match goal with |- context [z_run _ _ _ _ _ _ _ _ _ ?e] => set (z := z_run (Some zx_tok) 4 1000 zx_D None 8 0 (Some zx_auth) (Some zx_co) e) end.
    comp (sb_pubs (z_c z)) E1. comp (z_clog z) E2. comp (jm_tasks (sb_tasks (z_c z))) E3. comp (sb_topics (z_c z)) E4. comp (z_slog z) E5.
    exists (mkBackoff 0 MAX_RETRIES 1000 (Some 1010)). split.
    { unfold can_come_back. rewrite E1, E2, E3. split; [reflexivity|]. split; [cbn [In]; intuition discriminate|]. right. split; [left; intros []|]. split; vm_compute; congruence. }
    split; [reflexivity|]. split; [vm_compute; reflexivity|]. split; [vm_compute; reflexivity|].
    split. { repeat (apply Forall_cons; [first [exact Logic.I | fits_msg | vm_compute; reflexivity]|]). apply Forall_nil. }
    split. { intros t p [H|[]]. injection H as <- <-. ascii. }
    rewrite E4, E5. split. { split; intros H; cbn [In] in H; intuition discriminate. } split; [reflexivity|]. intros t [H|[H|[]]]; subst t; ascii.
  - match goal with |- context [z_run _ _ _ _ _ _ _ _ _ ?e] => set (z := z_run (Some zx_tok) 4 1000 zx_D None 8 0 (Some zx_auth) (Some zx_co) e) end.
    comp (sb_pubs (z_c z)) E1. comp (z_clog z) E2. comp (jm_tasks (sb_tasks (z_c z))) E3. comp (sb_topics (z_c z)) E4. comp (z_tasks z) E5.
    exists (bo_new 1000 MAX_RETRIES). split.
    { unfold can_come_back. rewrite E1, E2, E3, E5. split; [reflexivity|]. split; [cbn [In]; intuition discriminate|]. left. split; [left; reflexivity|reflexivity]. }
    rewrite E4. repeat split; vm_compute; reflexivity.
Qed.
