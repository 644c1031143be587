(** C85: buffers and slow peers. *)
From Coq Require Import List NArith.
From Verif Require Import Model.Base Model.Map Model.Stats Model.Framed Model.WireReqRep Model.WirePubSub Model.WireAuth Model.Compression Model.Trie Model.Backoff Model.Handshake Model.JoinMap Model.ReqDriver Model.RepDriver Model.PubDriver Model.SubDriver
  Spec.Wire Spec.Stream Spec.ReqSpec Spec.RepSpec Spec.PubSpec Spec.SubSpec.
Import ListNotations.
Open Scope N_scope.
(*HEADEND*)
From Coq Require Import ZArith ZifyBool ZifyNat ZifyN Bool.
From Verif Require Import Proofs.BaseP Proofs.MapP.
From Verif Require Proofs.RepDriverP Proofs.RepDriverP2 Proofs.SubDriverP Proofs.SubDriverP2 Proofs.SubDriverP3 Proofs.SubDriverP4 Proofs.ReqDriverP.
Local Open Scope N_scope.

(** * The publisher *)
Lemma hist_grows max buf min auth co evs : forall s s' L, pb_run max buf min auth co s evs = (s', L) -> blen (pb_hist s) <= blen (pb_hist s').
Proof.
  induction evs as [|ev evs IH]; intros s s' L R; cbn [pb_run] in R; [inversion R; subst; lia|].
  destruct (pb_act max buf min auth co s ev) as [s1 o1] eqn:A. destruct (pb_run max buf min auth co s1 evs) as [s2 o2] eqn:R2. inversion R; subst. specialize (IH _ _ _ R2).
  enough (blen (pb_hist s) <= blen (pb_hist s1)) by lia. clear R2 IH R. destruct ev as [c e|k i b|k r| |t p|t p|]; cbn [pb_act] in A.
  - unfold pb_session in A. destruct (mget c (pb_sess s)); [|inversion A; subst; lia]. destruct (sn_iter _ _ _ _ _ _) as [[[x' n] o] []]; inversion A; subst; cbn; lia.
  - unfold pb_auth in A. destruct (nth_error (pb_auths s) k); [|inversion A; subst; lia]. destruct auth; [|inversion A; subst; lia]. destruct (auth_server _ _ _) as [[[] ?] ?]; cbn in A; inversion A; subst; cbn; lia.
  - unfold pb_conn in A. destruct (nth_error (pb_conns s) k); [|inversion A; subst; lia]. destruct r as [[|]|]; [destruct auth|..]; cbn in A; inversion A; subst; cbn; lia.
  - unfold pb_accept in A. destruct (match max with Some m => _ | None => _ end); inversion A; subst; cbn; lia.
  - unfold pb_send in A. destruct (publish_outgoing _ _ _); [destruct (pb_closed s)|]; inversion A; subst; cbn [pb_hist]; rewrite ?blen_app; lia.
  - unfold pb_send in A. destruct (try_publish_outgoing _ _ _); [destruct (pb_closed s)|]; inversion A; subst; cbn [pb_hist]; rewrite ?blen_app; lia.
  - destruct (pb_closed s); inversion A; subst; cbn; lia.
Qed.

(*@prop C85 (publisher): however slow its subscriber is, a session has use for only the newest [bcast_cap buf] messages published so far (fewer than twice
    session_buffer_size): whatever happens from a state on, the session takes none of the older ones any more. *)
Lemma C85_publisher_backlog_pf :
  (forall buf, 1 <= buf -> bcast_cap buf < 2 * buf) /\
  (forall max buf min auth co s evs s' new cid i,
   pb_run max buf min auth co s evs = (s', new) -> In (QTook cid i) new -> blen (pb_hist s) <= i + bcast_cap buf).
Proof.
  split.
  - intros buf H. unfold bcast_cap. destruct (N.eq_dec buf 1) as [->|Hb]; [reflexivity|]. destruct (N.log2_up_spec buf) as [H1 H2]; [lia|].
    assert (E : N.log2_up buf = N.succ (N.pred (N.log2_up buf))) by (pose proof (N.log2_up_pos buf); lia). rewrite E, N.pow_succ_r'. lia.
  - intros max buf min auth co s evs. revert s. induction evs as [|ev evs IH]; intros s s' new cid i R H; cbn [pb_run] in R; [inversion R; subst; destruct H|].
    destruct (pb_act max buf min auth co s ev) as [s1 o1] eqn:A. destruct (pb_run max buf min auth co s1 evs) as [s2 o2] eqn:R2. inversion R; subst. apply in_app_or in H. destruct H as [H|H].
    + clear R2 R. destruct ev as [c e|k ii b|k r| |t p|t p|]; cbn [pb_act] in A.
      * unfold pb_session in A. destruct (mget c (pb_sess s)) as [x|]; [|inversion A; subst; destruct H]. destruct (sn_iter buf c e (pb_hist s) (pb_closed s) x) as [[[x' n] o] r] eqn:It.
        assert (Ho : In (QTook cid i) o) by (destruct r; inversion A; subst; try exact H; apply in_app_or in H; destruct H as [H|[H|[]]]; try discriminate; exact H).
        clear - It Ho. unfold sn_iter in It. destruct (s_ready e); [|inversion It; subst; destruct Ho]. cbn [sn_pending sn_pos sn_seq sn_filter sn_flush] in It. destruct (sn_pending x).
        { destruct (s_send e); inversion It; subst; destruct Ho as [Ho|[]]; discriminate. }
        unfold bcast_recv in It. destruct (N.eqb_spec (sn_pos x) (blen (pb_hist s))).
        { destruct (pb_closed s); [|destruct (s_next e)]; inversion It; subst; cbn in Ho; intuition discriminate. }
        destruct (N.ltb_spec (sn_pos x + bcast_cap buf) (blen (pb_hist s))); [inversion It; subst; destruct Ho as [Ho|[]]; discriminate|].
        destruct (nth_error _ _); [destruct (trie_contains _ _); [destruct (pub_into_wire _ _ _ _)|]|]; inversion It; subst; cbn in Ho; intuition; try (match goal with E : QTook _ _ = _ |- _ => inversion E; subst end); auto.
      * unfold pb_auth in A. destruct (nth_error (pb_auths s) k); [|inversion A; subst; destruct H]. destruct auth; [|inversion A; subst; destruct H]. destruct (auth_server _ _ _) as [[[] ?] ?]; cbn in A; inversion A; subst; cbn in H; intuition discriminate.
      * unfold pb_conn in A. destruct (nth_error (pb_conns s) k); [|inversion A; subst; destruct H]. destruct r as [[|]|]; [destruct auth|..]; cbn in A; inversion A; subst; cbn in H; intuition discriminate.
      * unfold pb_accept in A. destruct (match max with Some m => _ | None => _ end); inversion A; subst; cbn in H; intuition discriminate.
      * unfold pb_send in A. destruct (publish_outgoing _ _ _); [destruct (pb_closed s)|]; inversion A; subst; cbn in H; intuition discriminate.
      * unfold pb_send in A. destruct (try_publish_outgoing _ _ _); [destruct (pb_closed s)|]; inversion A; subst; cbn in H; intuition discriminate.
      * destruct (pb_closed s); inversion A; subst; cbn in H; intuition discriminate.
    + pose proof (hist_grows max buf min auth co [ev] s s1 o1) as Hg. cbn [pb_run] in Hg. rewrite A in Hg. specialize (Hg ltac:(rewrite app_nil_r; reflexivity)). pose proof (IH _ _ _ _ _ R2 H). lia.
Qed.

(** * The subscriber *)
Definition sx_run2 := sb_run None 4 1000 sx_D.
(*@prop C85 (subscriber), what holds: in every history, a session's messages waiting for the driver, its commands waiting for it, the
    commands waiting for the driver and the messages waiting for the application never exceed 1024, 64, 1024 and
    ingress_buffer_size: what does not fit is refused and reported to the log, and a full queue costs nothing else. *)
Lemma C85_subscriber_queues_partial_pf :
  forall token ingress initial D evs s log,
  sb_run token ingress initial D sb_init evs = (s, log) ->
  blen (sb_cmdq s) <= 1024 /\ blen (sb_out s) <= ingress /\
  forall cid x, mget cid (sb_conns s) = Some x -> blen (sc_in x) <= 1024 /\ blen (sc_cmds x) <= 64.
Proof.
  intros token ingress initial D evs s log R. destruct (SubDriverP4.run_GI token ingress initial D _ _ _ R) as [_ _ G1 _ _ _ _ _ _ _ G2].
  split; [exact G1|]. split; [exact G2|]. intros cid x G. pose proof (SubDriverP2.run_connI token ingress initial D cid _ _ _ R) as C. rewrite G in C.
  destruct C as [_ C1 _ C2 _ _]. cbn [SubDriverP2.inI SubDriverP2.cmdI] in C1, C2. split; [apply C2|apply C1].
Qed.

(*@prop C85 (subscriber), refuted for the frames waiting to be written: a session goes on taking commands from its queue while its connection
    accepts nothing.  By subscribing and unsubscribing, the application can make its buffer arbitrarily long. *)
Lemma C85_subscriber_egress_refuted_pf :
  forall n, exists evs s log x,
  sx_run evs = (s, log) /\ mget 0 (sb_conns s) = Some x /\ sc_alive x = true /\ (n <= length (sc_egress x))%nat.
Proof.
  set (cyc := fun t : bool => [YApi (if t then ApUnsub true [x61] else ApSub true [x61]); YCommand; YSess 0 sx_stuck]).
  assert (K : forall n (t : bool) s x, sb_cmdq s = [] -> sb_dropped s = false -> sb_pubs s = [(sx_addr, PActive 0)] -> sb_conns s = [(0, x)] -> sb_topics s = (if t then [[x61]] else []) ->
    sc_cmds x = [] -> sc_alive x = true -> sc_held x = true ->
    exists evs s' L x', sx_run2 s evs = (s', L) /\ mget 0 (sb_conns s') = Some x' /\ sc_alive x' = true /\ (n + length (sc_egress x) <= length (sc_egress x'))%nat).
  { induction n as [|n IH]; intros t s x E1 E2 E3 E4 E5 E6 E7 E8.
    { exists [], s, [], x. split; [reflexivity|]. rewrite E4. auto. }
    destruct s as [cq out dr tk tp pubs st conns nx]. cbn [sb_cmdq sb_dropped sb_pubs sb_conns sb_topics] in *. subst. destruct x as [ad eg fl inn cm al hd rx lat]. cbn [sc_cmds sc_alive sc_held] in *. subst.
    assert (St : exists s1 L1 x1, sx_run2 (mkSb [] out false tk (if t then [[x61]] else []) [(sx_addr, PActive 0)] st [(0, mkSc ad eg fl inn [] true true rx lat)] nx) (cyc t) = (s1, L1) /\
      sb_cmdq s1 = [] /\ sb_dropped s1 = false /\ sb_pubs s1 = [(sx_addr, PActive 0)] /\ sb_conns s1 = [(0, x1)] /\ sb_topics s1 = (if negb t then [[x61]] else []) /\
      sc_cmds x1 = [] /\ sc_alive x1 = true /\ sc_held x1 = true /\ length (sc_egress x1) = S (length eg)).
    { destruct t; unfold sx_run2, cyc; cbn -[eg_loop ps_new_sub ps_new_unsub]; (match goal with |- context [eg_loop 0 eg []] => idtac end);
        assert (Eg : exists eg' o f, eg_loop 0 eg [] = (eg', o, false, f) /\ length eg' = length eg) by (destruct eg as [|m r]; cbn; do 3 eexists; (split; [reflexivity|]); rewrite ?app_length; cbn; lia);
        destruct Eg as (eg' & o & f & Eg & Ln); rewrite Eg; cbn -[ps_new_sub ps_new_unsub].
      - destruct (ps_new_unsub 5 [x61]) as [m|] eqn:M; [|vm_compute in M; discriminate]. do 3 eexists. split; [reflexivity|]. split; [reflexivity|]. split; [reflexivity|]. split; [reflexivity|]. split; [reflexivity|]. cbn [sc_set_cmds sc_set_egress sc_cmds sc_alive sc_held sc_egress]. rewrite app_length, Ln. cbn. repeat split. lia.
      - destruct (ps_new_sub 5 [x61]) as [m|] eqn:M; [|vm_compute in M; discriminate]. do 3 eexists. split; [reflexivity|]. split; [reflexivity|]. split; [reflexivity|]. split; [reflexivity|]. split; [reflexivity|]. cbn [sc_set_cmds sc_set_egress sc_cmds sc_alive sc_held sc_egress]. rewrite app_length, Ln. cbn. repeat split. lia. }
    destruct St as (s1 & L1 & x1 & R1 & A1 & A2 & A3 & A4 & A5 & A6 & A7 & A8 & A9). destruct (IH (negb t) s1 x1 A1 A2 A3 A4 A5 A6 A7 A8) as (evs & s' & L & x' & R & G & Al & Le).
    exists (cyc t ++ evs), s', (L1 ++ L), x'. split; [unfold sx_run2; rewrite SubDriverP.run_app; unfold sx_run2 in R1, R; rewrite R1, R; reflexivity|]. split; [exact G|]. split; [exact Al|]. cbn [sc_egress]. lia. }
  intros n. destruct (sx_run (sx_open ++ [YSess 0 sx_stuck])) as [s0 L0] eqn:Ez. pose proof (f_equal fst Ez) as Es. vm_compute in Es.
  assert (H : exists x, sb_cmdq s0 = [] /\ sb_dropped s0 = false /\ sb_pubs s0 = [(sx_addr, PActive 0)] /\ sb_conns s0 = [(0, x)] /\ sb_topics s0 = [[x61]] /\ sc_cmds x = [] /\ sc_alive x = true /\ sc_held x = true) by (rewrite <- Es; eexists; repeat split).
  destruct H as (x & A1 & A2 & A3 & A4 & A5 & A6 & A7 & A8). destruct (K n true s0 x A1 A2 A3 A4 A5 A6 A7 A8) as (evs & s' & L & x' & R & G & Al & Le).
  exists ((sx_open ++ [YSess 0 sx_stuck]) ++ evs), s', (L0 ++ L), x'. split; [|split; [exact G|split; [exact Al|lia]]].
  unfold sx_run. rewrite SubDriverP.run_app. unfold sx_run in Ez. rewrite Ez. unfold sx_run2 in R. rewrite R. reflexivity.
Qed.

(** * The request socket *)
(*@prop C85 (request), refuted: the driver goes on taking calls from the channel while its connection accepts nothing, and a frame stays queued when its call
    has timed out.  However many calls time out, their frames are all kept: the queue is not bounded by the callers waiting
    (there are none), by a channel capacity or by a back-pressure option. *)
Lemma C85_request_queue_refuted_pf :
  forall D n, exists evs s log,
  rd_run ex_opts None D rd_init evs = (s, log) /\ rd_conn s = RActive /\ length (rd_egress s) = n /\ rd_pending s = [] /\ rd_cmds s = [] /\
  length (issued evs) = n /\ forall c p, In (c, p) (issued evs) -> In (Resolve c OTimeout) log.
Proof.
  intros D. set (slow := fun t => mkEnv t false true None NxPending false true 1 true true).
  set (cyc := fun c t => [EReq c [x41]; EIter (slow t); EIter (slow (t + 5001 * ms))]).
  assert (K : forall c t id eg tx rx rtts, exists m id' L, rd_run ex_opts None D (mkRd id [] false false RActive eg [] false tx rx rtts false) (cyc c t) =
     (mkRd id' [] false false RActive (eg ++ [m]) [] false tx rx rtts false, L) /\ In (Resolve c OTimeout) L).
  { intros c t id eg tx rx rtts.
    assert (S1 : exists m id', rd_step ex_opts None D (mkRd id [(c, [x41])] false false RActive eg [] false tx rx rtts false) (EIter (slow t)) =
      (mkRd id' [] false false RActive (eg ++ [m]) [(rr_id m, (t, c))] false tx rx rtts false, [CheckedTimeouts t; Accept t c m])) by (do 2 eexists; reflexivity).
    destruct S1 as (m & id' & S1).
    assert (S2 : forall k eg, rd_step ex_opts None D (mkRd id' [] false false RActive eg [(k, (t, c))] false tx rx rtts false) (EIter (slow (t + 5001 * ms))) =
      (mkRd id' [] false false RActive eg [] false tx rx rtts false, [CheckedTimeouts (t + 5001 * ms); Resolve c OTimeout])).
    { intros k eg'. unfold rd_step. cbn [rd_done]. unfold rd_iter, rd_do_flush, rd_do_task, rd_do_active. cbn [rd_flush rd_task rd_conn slow e_next e_ready e_ticks e_now]. unfold rd_ticks, rd_check_timeouts, timed_out_ids. cbn [rd_pending filter fst snd].
      replace (ro_timeout ex_opts <? t + 5001 * ms - t) with true by (symmetry; apply N.ltb_lt; unfold ex_opts, ro_timeout, ms; lia). cbn [map fst].
      assert (Rm : remove_timed_out [k] [(k, (t, c))] = ([], [Resolve c OTimeout])). { cbn. repeat match goal with |- context [eq_dec k k] => destruct (eq_dec k k); [|congruence] | |- context [N.eq_dec k k] => destruct (N.eq_dec k k); [|congruence] end; reflexivity. }
      rewrite Rm. reflexivity. }
    exists m, id', [CheckedTimeouts t; Accept t c m; CheckedTimeouts (t + 5001 * ms); Resolve c OTimeout]. split; [|cbn; auto].
    unfold cyc. cbn [rd_run]. change (rd_step ex_opts None D (mkRd id [] false false RActive eg [] false tx rx rtts false) (EReq c [x41])) with (mkRd id [(c, [x41])] false false RActive eg [] false tx rx rtts false, @nil out).
    cbv beta iota. rewrite S1, S2. reflexivity. }
  intros n. cut (exists evs id eg tx rx rtts L, rd_run ex_opts None D rd_init evs = (mkRd id [] false false RActive eg [] false tx rx rtts false, L) /\ length eg = n /\ length (issued evs) = n /\ forall c p, In (c, p) (issued evs) -> In (Resolve c OTimeout) L).
  { intros (evs & id & eg & tx & rx & rtts & L & R & E1 & E2 & E3). exists evs. do 2 eexists. split; [exact R|]. cbn [rd_conn rd_egress rd_pending rd_cmds]. auto 10. }
  induction n as [|n (evs & id & eg & tx & rx & rtts & L & R & E1 & E2 & E3)].
  - exists [EIter (ex_env 0); EIter (ex_env (20 * ms)); EIter (ex_conn (21 * ms) true)]. do 6 eexists. split; [vm_compute; reflexivity|]. split; [reflexivity|]. split; [reflexivity|]. intros c p [].
  - destruct (K (N.of_nat n) (6000 * ms * N.of_nat (S n)) id eg tx rx rtts) as (m & id' & L' & R' & I'). exists (evs ++ cyc (N.of_nat n) (6000 * ms * N.of_nat (S n))), id', (eg ++ [m]), tx, rx, rtts, (L ++ L').
    split; [rewrite ReqDriverP.run_app, R, R'; reflexivity|]. unfold issued in *. rewrite flat_map_app, !app_length. cbn. split; [lia|]. split; [lia|].
    intros c p H. apply in_or_app. apply in_app_or in H. destruct H as [H|[H|[]]]; [left; eapply E3; eauto|]. inversion H; subst. right. exact I'.
Qed.

(** * The reply socket *)
Ltac prims P := destruct P as [s a p G Op|s a p m q ok G Op E|s a p r id x m G Op Hi Os Ro|s a p r id x G Op Hi Os Ro|s a p r id G Op Hi Os1 Os2|s a p G Op|s a p m G Op|s a p G Op
    |s k cid addr au i b id w rest Nk Au As|s k cid addr au i b w rest Nk Au As|s k cid addr au i b w rest Nk Au As|s k cid Nk|s k cid addr Nk Au|s k cid addr Nk Au
    |s|s Hm|s q rest Ch|s rid x Hh Or|s rid x Hh Or|s rid Hh|s].
(*@prop C85 (reply), what holds: at most 1024 requests wait for the application. *)
Lemma C85_reply_queue_partial_pf :
  forall max min auth co D evs s log, rp_run max min auth co D rp_init evs = (s, log) -> blen (rp_chan s) <= 1024.
Proof.
  intros max min auth co D evs s log R. apply (RepDriverP.run_inv max min auth co D (fun _ s => blen (rp_chan s) <= 1024)) with (3 := R); [|cbn; lia].
  intros L s0 o s1 I P. clear R evs log s. prims P; try exact I.
  - unfold rp_on_request. cbn zeta. destruct (try_decompress _ _ _); [|exact I]. destruct (_ || _) eqn:B; [exact I|]. apply orb_false_iff in B. destruct B as [_ B]. apply N.leb_gt in B. unfold rep_chan_cap in B.
    cbn [fst rp_chan]. cbn [RepDriverP.upd rp_with_peers rp_chan] in *. rewrite blen_app. unfold blen in *. cbn [length]. lia.
  - cbn [rp_set_app rp_chan]. rewrite Ch in I. unfold blen in *. cbn [length] in I. lia.
  - cbn. lia.
Qed.

(*@prop C85 (reply), refuted for the responses of a client: the driver goes on reading requests from a connection that accepts no responses.  A client that
    only sends makes the queue of its responses arbitrarily long. *)
Lemma C85_reply_egress_refuted_pf :
  forall D n, exists evs s log p,
  rp_run None 0 None None D rp_init evs = (s, log) /\ mget 7 (rp_peers s) = Some p /\ pr_open p = true /\ length (pr_egress p) = n /\ handed_on 0 log = [].
Proof.
  intros D. set (m := rr_new 4 x00 [x41]). set (slow := fun nx => mkPenv true false true (Some 0) nx).
  set (cyc := fun r => [VPeer 7 (slow (NxMsg m)); VRecv; VRespond r [x42]; VPeer 7 (slow NxPending)]).
  assert (K : forall ac eg os r nc tx rx fl, exists f os' rx' L, rp_run None 0 None None D (mkRp ac [] [] [(7, mkPeer 0 [] eg false true)] [] [] os r nc tx rx fl false) (cyc r) =
    (mkRp ac [] [] [(7, mkPeer 0 [] (eg ++ [f]) false true)] [] [] os' (r + 1) nc tx rx' fl false, L) /\ handed_on 0 L = []).
  { intros ac eg os r nc tx rx fl. set (act := rp_act None 0 None None D).
    assert (S1 : act (mkRp ac [] [] [(7, mkPeer 0 [] eg false true)] [] [] os r nc tx rx fl false) (VPeer 7 (slow (NxMsg m))) =
      (mkRp ac [] [] [(7, mkPeer 0 [(r, 4)] eg false true)] [mkReq 7 r [x41]] [] (mset r OsWait os) (r + 1) nc tx (rx + 1) fl false, [RIncoming 0 7 r m; RYield (mkReq 7 r [x41])])) by reflexivity.
    assert (S2 : forall os rx, act (mkRp ac [] [] [(7, mkPeer 0 [(r, 4)] eg false true)] [mkReq 7 r [x41]] [] os (r + 1) nc tx rx fl false) VRecv =
      (mkRp ac [] [] [(7, mkPeer 0 [(r, 4)] eg false true)] [] [r] os (r + 1) nc tx rx fl false, [RReceived (mkReq 7 r [x41])])) by reflexivity.
    assert (S3 : forall os rx, act (mkRp ac [] [] [(7, mkPeer 0 [(r, 4)] eg false true)] [] [r] os (r + 1) nc tx rx fl false) (VRespond r [x42]) =
      (mkRp ac [] [] [(7, mkPeer 0 [(r, 4)] eg false true)] [] [] (mset r (OsSent [x42]) os) (r + 1) nc tx rx fl false, [RResponded r [x42] true])).
    { intros os0 rx0. unfold act, rp_act. cbn [rp_held]. replace (smem r [r]) with true by (symmetry; apply smem_true; now left).
      replace (os_receiver _ r) with true by (unfold os_receiver; cbn [rp_peers existsb snd pr_pending fst]; rewrite N.eqb_refl; reflexivity).
      replace (sdel r [r]) with (@nil N); [reflexivity|]. unfold sdel. cbn. repeat match goal with |- context [eq_dec r r] => destruct (eq_dec r r); [|congruence] | |- context [N.eq_dec r r] => destruct (N.eq_dec r r); [|congruence] end; reflexivity. }
    assert (S4 : forall os rx, mget r os = Some (OsSent [x42]) -> act (mkRp ac [] [] [(7, mkPeer 0 [(r, 4)] eg false true)] [] [] os (r + 1) nc tx rx fl false) (VPeer 7 (slow NxPending)) =
      (mkRp ac [] [] [(7, mkPeer 0 [] (eg ++ [rr_new 4 x00 [x42]]) false true)] [] [] os (r + 1) nc tx rx fl false, [RQueued 0 r (rr_new 4 x00 [x42])])).
    { intros os2 rx2 G. assert (Pk : pick (Some 0) os2 [(r, 4)] = Some (r, 4)). { unfold pick. cbn [filter]. unfold os_done. cbn [fst]. rewrite G. cbn [find fst]. destruct (r =? 0); reflexivity. }
      unfold act, rp_act, rp_peer. cbn [rp_peers]. replace (mget 7 [(7, mkPeer 0 [(r, 4)] eg false true)]) with (Some (mkPeer 0 [(r, 4)] eg false true)) by reflexivity. cbn [pr_open].
      unfold peer_iter. cbn [pr_flush andb p_ready slow pr_egress pr_pending p_pref rp_os]. rewrite Pk, G. change (rep_outgoing 0 None 4 [x42]) with (Some (rr_new 4 x00 [x42])). cbv beta iota zeta.
      replace (unpend r [(r, 4)]) with (@nil (N * N)) by (unfold unpend; cbn [filter fst]; rewrite N.eqb_refl; reflexivity). reflexivity. }
    do 4 eexists. unfold cyc. cbn [rp_run]. fold act. rewrite S1, S2, S3, S4 by apply mget_set_eq. split; reflexivity. }
  intros n. cut (exists evs ac eg os r nc tx rx fl L, rp_run None 0 None None D rp_init evs = (mkRp ac [] [] [(7, mkPeer 0 [] eg false true)] [] [] os r nc tx rx fl false, L) /\ length eg = n /\ handed_on 0 L = []).
  { intros (evs & ac & eg & os & r & nc & tx & rx & fl & L & R & E & H). exists evs. do 3 eexists. split; [exact R|]. split; [reflexivity|]. cbn. auto. }
  induction n as [|n (evs & ac & eg & os & r & nc & tx & rx & fl & L & R & E & H)].
  - exists [VAccept; VConn 0 (Some (Some 7))]. do 9 eexists. split; [vm_compute; reflexivity|]. split; reflexivity.
  - destruct (K ac eg os r nc tx rx fl) as (f & os' & rx' & L' & R' & H'). exists (evs ++ cyc r), ac, (eg ++ [f]), os', (r + 1), nc, tx, rx', fl, (L ++ L').
    split; [rewrite RepDriverP.run_app, R, R'; reflexivity|]. rewrite app_length. cbn. split; [lia|]. unfold handed_on in *. rewrite flat_map_app, H, H'. reflexivity.
Qed.

(*@example With a buffer of 4, message 0 is out of reach of a subscriber that reads nothing while 5 are published; it gets the other four. *)
Lemma C85_publisher_example_pf :
  let r := pb_run None 4 100 None None pb_init ([WAccept; WConn 0 (Some true); WSession 0 (px_env (px_sub [x61]))] ++ repeat (WTryPublish [x61] [x01]) 5) in
  let q := pb_run None 4 100 None None (fst r) (px_idle 9 0) in
  blen (pb_hist (fst r)) = 5 /\ bcast_cap 4 = 4 /\
  flat_map (fun x => match x with QTook c i => [i] | _ => [] end) (snd q) = [1; 2; 3; 4] /\ length (sent_to 0 (snd q)) = 4%nat.
Proof. cbv zeta. repeat match goal with |- _ /\ _ => split end; vm_compute; reflexivity. Qed.
