(** Reply socket: C21 .. C27 (reply side), C57 (reply driver), C58. *)
From Coq Require Import List NArith.
From Verif Require Import Model.Base Model.Map Model.Stats Model.Framed Model.WireReqRep Model.WireAuth Model.Compression Model.Handshake Model.ReqDriver Model.RepDriver
  Spec.Wire Spec.Stream Spec.AuthCuts Spec.ReqSpec Spec.RepSpec.
Import ListNotations.
Open Scope N_scope.
(*HEADEND*)
From Coq Require Import ZArith ZifyBool ZifyNat ZifyN Permutation.
From Verif Require Import Spec.CompressSpec Proofs.BaseP Proofs.MapP Proofs.ReqRepP Proofs.HandshakeP Proofs.RepDriverP Proofs.RepDriverP2 Proofs.RepDriverP3 Proofs.RepDriverP4 Proofs.RepDriverP5.
From Verif Require Proofs.T_Compress Proofs.T_Req.
Local Open Scope N_scope.

Ltac inlog := vm_compute; repeat (first [left; reflexivity|right]).
Ltac evals := cbv zeta; repeat match goal with |- _ /\ _ => split end; vm_compute; repeat (first [reflexivity|left; reflexivity|right]).
Lemma queued_in c r m L : In (r, m) (queued_on c L) <-> In (RQueued c r m) L.
Proof.
  unfold queued_on. rewrite in_flat_map. split.
  - intros (x & Hx & H). destruct x; try contradiction. destruct (eq_dec cid c); [|contradiction]. destruct H as [H|[]]. inversion H; subst. exact Hx.
  - intros H. exists (RQueued c r m). split; [exact H|]. cbn. destruct (eq_dec c c); [left; reflexivity|congruence].
Qed.

Lemma queued_on_nodup c L : NoDup (queued_rids L) -> NoDup (map fst (queued_on c L)).
Proof.
  unfold queued_rids, queued_on. induction L as [|x L IH]; cbn; [constructor|]. destruct x; cbn; auto.
  intros H. inversion H as [|? ? H1 H2]; subst. destruct (eq_dec cid c); cbn; [|auto]. constructor; [|auto].
  intros X. apply H1. clear - X. induction L as [|x L IH]; cbn in *; [exact X|]. apply in_or_app. rewrite map_app in X. apply in_app_or in X.
  destruct X as [X|X]; [left|right; auto]. destruct x as [| | |c0 r0 m0| | | | | | | | | | | | | |]; cbn in *; try contradiction. destruct (eq_dec c0 c); cbn in *; [exact X|contradiction].
Qed.

Lemma frame_answers min co D L c r m a req x : In (RIncoming c a r req) L -> In (RResponded r x true) L -> rep_outgoing min co (rr_id req) x = Some m -> answers co D L c r m.
Proof.
  intros H1 H2 H3. exists a, req, x. split; [exact H1|]. split; [exact H2|]. unfold rep_outgoing in H3. destruct co as [cm|].
  - destruct (cmp_fun cm x) as [p|] eqn:E; inversion H3; subst. split; [reflexivity|]. intros I. apply (T_Compress.decompress_inverse D cm x p); [apply I; reflexivity|exact E].
  - inversion H3; subst. split; [reflexivity|]. intros _. reflexivity.
Qed.

(*@prop C22: in every history, the frames written to any connection [cid] answer pairwise different requests [rids], each of which arrived
    on that same connection and was responded to by the application; the frame has the request's id and decompresses to
    the response.  A request number belongs to one frame received on one connection, and gets at most one response. *)
Lemma C22_frames_answer_requests_pf :
  forall max min auth co D evs s log,
  rp_run max min auth co D rp_init evs = (s, log) ->
  (forall cid, exists rids, NoDup rids /\ Forall2 (answers co D log cid) rids (handed_on cid log)) /\
  (forall c a r m c' a' m', In (RIncoming c a r m) log -> In (RIncoming c' a' r m') log -> c = c' /\ a = a' /\ m = m') /\
  (forall r x y, In (RResponded r x true) log -> In (RResponded r y true) log -> x = y).
Proof.
  intros max min auth co D evs s L R. destruct (run_inv2 max min auth co D evs s L R) as (I & Q & A & F & T).
  destruct F as (F1 & F2 & F3 & F4 & F5 & F6). destruct Q as (Q1 & Q2 & Q3 & Q4). destruct A as (A1 & A2 & A3 & A4 & A5).
  split; [|split; [exact Q2|]].
  - intros c. destruct (F5 c) as [rest E]. exists (firstn (length (handed_on c L)) (map fst (queued_on c L))).
    assert (N : NoDup (map fst (queued_on c L))) by (apply queued_on_nodup, F2). split.
    { rewrite <- (firstn_skipn (length (handed_on c L))) in N. apply NoDup_app_l in N. exact N. }
    assert (K : forall r m, In (r, m) (queued_on c L) -> answers co D L c r m).
    { intros r m H. apply queued_in in H. destruct (F1 _ _ _ H) as (a & req & x & H1 & H2 & H3). eapply frame_answers; eauto. }
    clear - E K. revert K E. generalize (handed_on c L) as h. induction (queued_on c L) as [|[r m] q IH]; intros h K E.
    + destruct h; [constructor|discriminate].
    + destruct h as [|m' h]; [constructor|]. cbn in E. inversion E; subst. cbn. constructor; [apply K; left; reflexivity|].
      apply IH; [intros; apply K; right; assumption|assumption].
  - intros r x y Hx Hy. apply A5 in Hx. apply A5 in Hy. congruence.
Qed.

(*@prop C22: in every history, each accepted response to a request of connection [cid] has been made a frame answering it
    that was written to the connection or waits in its queue, or it is still to be made one by the (open) connection, or
    its compression failed, or the connection ended. *)
Lemma C22_every_response_accounted_for_pf :
  forall max min auth co D evs s log cid addr rid req x,
  rp_run max min auth co D rp_init evs = (s, log) ->
  In (RIncoming cid addr rid req) log -> In (RResponded rid x true) log ->
  (exists m, In (RQueued cid rid m) log /\ answers co D log cid rid m /\ (In m (handed_on cid log) \/ frame_waits s cid m)) \/
  response_waits s cid rid \/ ~ compressible co x \/ In cid (ended log).
Proof.
  intros max min auth co D evs s L c a r req x R Hi Hr. destruct (run_inv2 max min auth co D evs s L R) as (I & Q & A & F & T).
  pose proof (run_home max min auth co D evs s L R) as Hm.
  destruct (T _ _ _ _ _ Hr Hi) as [(m & H)|[(H1 & H2)|[H|(p & H1 & H2 & H3 & H4)]]].
  - destruct F as (F1 & F2 & F3 & F4 & F5 & F6). destruct (F1 _ _ _ H) as (a' & req' & x' & G1 & G2 & G3).
    destruct (Hm _ _ _ _ Hi) as [E|(p & P1 & P2 & P3)]; [auto|]. left. exists m. split; [exact H|]. split; [eapply frame_answers; eauto|].
    specialize (F4 _ _ P1 P2). rewrite P3 in F4. apply queued_in, (in_map snd) in H. cbn in H. rewrite F4 in H. apply in_app_or in H.
    destruct H as [H|H]; [left; exact H|right]. exists a, p. auto.
  - right; right; left. intros Cx. unfold rep_outgoing in H2. destruct co as [cm|]; [|discriminate]. specialize (Cx cm eq_refl). destruct (cmp_fun cm x); [discriminate|congruence].
  - auto.
  - right; left. exists a, p. split; [exact H1|]. split; [exact H2|]. split; [exact H3|]. apply (in_map fst) in H4. exact H4.
Qed.

(*@example *)
Lemma C22_example_pf :
  forall D, let r := rp_run None 0 None None D rp_init rx_hist in
  handed_on 0 (snd r) = [rr_new 3 x00 [x61; x61]] /\ handed_on 1 (snd r) = [rr_new 3 x00 [x62]] /\
  In (RResponded 0 [x61; x61] true) (snd r) /\ In (RIncoming 0 7 0 (rr_new 3 x00 [x41])) (snd r).
Proof. intros D. evals. Qed.

(*@prop C23 is violated: the application answers one request and drops another one of the same client; the driver's poll
    takes the dropped one, finds nothing to read and goes idle (returns Pending), leaving the answer unsent. *)
Lemma C23_response_stranded_refuted_pf :
  forall D, exists evs s log s' new,
  rp_run None 0 None None D rp_init evs = (s, log) /\ In (RResponded 1 [x62] true) log /\
  rp_poll None 0 None None D [rx_quiet] s = (s', new, true) /\
  response_waits s' 0 1 /\ handed_on 0 (log ++ new) = [].
Proof.
  intros D. exists [VAccept; VConn 0 (Some (Some 7)); VPeer 7 (rx_penv (NxMsg (rr_new 3 x00 [x41]))); VPeer 7 (rx_penv (NxMsg (rr_new 4 x00 [x42])));
    VRecv; VRecv; VDiscard 0; VRespond 1 [x62]].
  eexists _, _, _, _. split; [vm_compute; reflexivity|]. split; [inlog|]. split; [vm_compute; reflexivity|]. split; [|reflexivity].
  eexists 7, _. split; [reflexivity|]. split; [reflexivity|]. split; [reflexivity|]. left. reflexivity.
Qed.

(*@prop C23 (what holds): if no request of the client was dropped (by the application or the socket), then when the driver
    goes idle each response given for a request of that client has been made a frame answering it - and that frame has
    been written, provided the connection accepted writes whenever asked during the poll - unless the response
    could not be compressed or the connection ended.  (A turn in which finished responses are not looked at because tokio's budget is used up
    is followed by another one, as the task is then woken at once: hence the fourth hypothesis.) *)
Lemma C23_response_not_stranded_partial_pf :
  forall max min auth co D evs s log ds s' new cid addr rid req x,
  rp_run max min auth co D rp_init evs = (s, log) -> rp_poll max min auth co D ds s = (s', new, true) ->
  In (RIncoming cid addr rid req) (log ++ new) -> In (RResponded rid x true) (log ++ new) ->
  (forall d e, In d ds -> In e (d_peers d addr) -> p_pref e <> None) ->
  (forall a' r' m', In (RIncoming cid a' r' m') (log ++ new) -> ~ In (RLost r') (log ++ new) /\ ~ In (RDiscarded r') (log ++ new)) ->
  (exists m, answers co D (log ++ new) cid rid m /\ In (RQueued cid rid m) (log ++ new) /\
     ((forall d e, In d ds -> In e (d_peers d addr) -> p_ready e = true) -> In m (handed_on cid (log ++ new)))) \/
  ~ compressible co x \/ In cid (ended (log ++ new)).
Proof.
  intros max min auth co D evs s0 L0 ds s o c a r req x R0 P Hi Hr Pf Hl.
  destruct (poll_last max min auth co D _ _ _ _ P) as (ds1 & d & ds2 & s1 & o1 & o2 & -> & P1 & It & ->).
  destruct (poll_run max min auth co D _ _ _ _ _ P1) as (ev1 & R1). destruct (iter_run max min auth co D _ _ _ _ _ It) as (ev2 & R2).
  pose proof (run_trans max min auth co D _ _ _ _ _ _ _ R0 R1) as R01. pose proof (run_trans max min auth co D _ _ _ _ _ _ _ R01 R2) as R.
  rewrite <- (app_assoc L0) in R.
  destruct (run_inv3 max min auth co D _ _ _ R) as ((I & Q & A & F & T) & Y & Dr & X).
  destruct (run_inv3 max min auth co D _ _ _ R01) as ((I' & Q' & A' & F' & T') & Y' & Dr' & X').
  pose proof (run_home max min auth co D _ _ _ R) as Hm.
  destruct (iter_idle max min auth co D _ _ _ _ It) as (Sh & Os & Idl & Rdy).
  destruct (T _ _ _ _ _ Hr Hi) as [(m & H)|[(H1 & H2)|[H|(p & H1 & H2 & H3 & H4)]]].
  - destruct F as (F1 & F2 & F3 & F4 & F5 & F6). destruct (F1 _ _ _ H) as (a' & req' & x' & G1 & G2 & G3).
    destruct (Hm _ _ _ _ Hi) as [E|(p & P1' & P2 & P3)]; [auto|]. left. exists m. split; [eapply frame_answers; eauto|]. split; [exact H|].
    intros Rd. specialize (F4 _ _ P1' P2). rewrite P3 in F4. apply queued_in, (in_map snd) in H. cbn [snd] in H. rewrite F4 in H. apply in_app_or in H.
    destruct H as [H|H]; [exact H|]. rewrite (Rdy a) in H; [destruct H| |exact P1']. intros e He. eapply Rd; [|exact He]. apply in_or_app; right; left; reflexivity.
  - right; left. intros Cx. unfold rep_outgoing in H2. destruct co as [cm|]; [|discriminate]. specialize (Cx cm eq_refl). destruct (cmp_fun cm x); [discriminate|congruence].
  - auto.
  - exfalso. assert (Cl : clean a s1).
    { intros q r1 id1 Gq Hq. destruct (Sh a _ H1) as (q' & Gq' & Cq' & _ & _). rewrite Gq in Gq'. inversion Gq'; subst q'.
      destruct Q' as (Q1 & Q2 & Q3 & Q4). destruct Dr' as (D1 & D2 & D3 & D4). destruct (Q4 _ _ _ _ Gq Hq) as (m1 & Hm1 & _). split; [apply D1; eapply Q1; eauto|].
      intros Z. rewrite Cq', H3 in Hm1. assert (Hm1' : In (RIncoming c a r1 m1) (L0 ++ o1 ++ o2)) by (rewrite app_assoc; apply in_or_app; left; exact Hm1).
      destruct (Hl _ _ _ Hm1') as [Z1 Z2]. rewrite app_assoc in Z1, Z2. destruct (D2 _ Z) as [Z3|[Z3|[y Z3]]].
      - apply Z1, in_or_app; left; exact Z3.
      - apply Z2, in_or_app; left; exact Z3.
      - eapply D3; eauto. }
    pose proof (Idl a (fun e He => Pf d e (in_elt d ds1 ds2) He) Cl _ _ _ H1 H4) as W. destruct A as (A1 & A2 & A3 & A4 & A5). apply A5 in Hr. congruence.
Qed.

(*@example *)
Lemma C23_example_pf :
  forall D, exists s log s' new,
  rp_run None 0 None None D rp_init (rx_start ++ [VRespond 1 [x62]]) = (s, log) /\ rp_poll None 0 None None D [rx_quiet] s = (s', new, true) /\
  In (RResponded 1 [x62] true) log /\ handed_on 1 log = [] /\ handed_on 1 (log ++ new) = [rr_new 3 x00 [x62]] /\ lost_rids (log ++ new) = [].
Proof. intros D. eexists _, _, _, _. split; [vm_compute; reflexivity|]. split; [vm_compute; reflexivity|]. split; [inlog|]. repeat split; reflexivity. Qed.

Lemma blen_perm_live L s : inv1 L s -> blen (live L) = blen (connections s).
Proof. intros I. apply blen_perm, live_perm, I. Qed.

(*@prop C24 (reply socket): with max_clients = m, in every history at most m connections are being established or live at any time. *)
Lemma C24_reply_max_clients_pf :
  forall m min auth co D evs s log,
  m < 2 ^ 64 -> rp_run (Some m) min auth co D rp_init evs = (s, log) -> blen (live log) <= m.
Proof.
  intros m min auth co D evs s L Hlt R. destruct (run_cap (Some m) min auth co D m evs s L eq_refl Hlt R) as [I C].
  rewrite (blen_perm_live _ _ I). pose proof (balance L s I) as B. unfold cap in C. lia.
Qed.

(*@example *)
Lemma C24_reply_example_pf :
  forall D, let r := rp_run (Some 2) 0 None None D rp_init (rx_hist ++ [VAccept; VPeer 7 (rx_penv NxEof); VAccept]) in
  live (snd r) = [1; 2] /\ In RRefused (snd r) /\ In (RGone 0) (snd r).
Proof. intros D. evals. Qed.

(*@prop C25 (reply socket) is violated: (1) a client whose handshake makes the auth task panic is never subtracted; (2) nor is a client
    thrown out by another one with the same address.  In both cases active_clients is 1 too large for ever. *)
Lemma C25_reply_active_clients_refuted_pf :
  forall D, exists accept_all,
  (let r := rp_run None 0 (Some accept_all) None D rp_init
       [VAccept; VConn 0 (Some (Some 7)); VAuth 0 [IoData [x01; x00; x00; x00; x05; x41]] true] in
   live (snd r) = [] /\ rp_active (fst r) = 1) /\
  (let r := rp_run None 0 None None D rp_init
       [VAccept; VConn 0 (Some (Some 7)); VAccept; VConn 0 (Some (Some 7)); VPeer 7 (rx_penv NxEof)] in
   live (snd r) = [] /\ rp_active (fst r) = 1).
Proof. intros D. exists (fun _ => true). evals. Qed.

(*@prop C25 (reply socket; exact law): active_clients is the number of connections being established or live plus the number of those lost
    in an auth-task panic or thrown out by a connection with the same address, so it is right if there were none. *)
Lemma C25_reply_active_clients_partial_pf :
  forall max min auth co D evs s log,
  rp_run max min auth co D rp_init evs = (s, log) -> blen (live log) + blen (leaked log) < 2 ^ 64 ->
  rp_active s = blen (live log) + blen (leaked log).
Proof.
  intros max min auth co D evs s L R Hlt. pose proof (run_inv1 max min auth co D evs s L R) as I. rewrite (blen_perm_live _ _ I) in *.
  destruct I as (_ & _ & _ & _ & ->). unfold wrap64. apply N.mod_small, Hlt.
Qed.

(*@example *)
Lemma C25_reply_example_pf :
  forall D, let r := rp_run None 0 None None D rp_init (rx_hist ++ [VPeer 7 (rx_penv NxEof); VAccept; VConn 0 None]) in
  live (snd r) = [1] /\ leaked (snd r) = [] /\ rp_active (fst r) = 1.
Proof. intros D. evals. Qed.

(*@prop C26 (reply socket): with an authenticator [a], in every history: a request given to the application, or any other frame
    received on a served connection, is preceded on its connection by a handshake in which the client sent an auth frame
    with a token that [a] accepted. *)
Lemma C26_reply_only_authenticated_pf :
  forall max min a co D evs s log,
  rp_run max min (Some a) co D rp_init evs = (s, log) ->
  (forall before q after, log = before ++ RYield q :: after ->
     exists b cid m, before = b ++ [RIncoming cid (q_source q) (q_rid q) m]) /\
  (forall before cid addr rid m after, log = before ++ RIncoming cid addr rid m :: after ->
     exists input token frame rest, In (RAuthed cid input token) before /\ a token = true /\
       auth_frame token frame /\ received input = frame ++ rest).
Proof.
  intros max min a co D evs s L R. split.
  - intros before q after E. destruct (run_yord max min (Some a) co D evs s L R) as [Y _]. destruct (Y _ _ _ E) as (b & c & m & -> & _). eauto.
  - intros before c addr rid m after E. destruct (run_gate max min (Some a) co D evs s L R) as (_ & G2 & G3).
    destruct (G2 _ _ _ _ _ _ E) as [G|(i & id & G)]; [discriminate|].
    destruct (G3 c i id) as (au & b & w & rest & Au & As); [rewrite E; apply in_or_app; left; exact G|].
    inversion Au; subst. apply auth_server_ok in As. destruct As as (_ & As & _ & used & frame & over & -> & Hf & Hu).
    exists (used ++ rest), id, frame, (over ++ received rest). split; [exact G|]. split; [exact As|]. split; [exact Hf|].
    rewrite received_app, Hu, <- app_assoc. reflexivity.
Qed.

(*@prop C26 (reply socket): in every history, the bytes a handshake writes are the ack frame 01 01, followed by the connection
    being served, or (nothing or) the reject frame 01 00, followed by the connection's end; and a connection that ended stays
    silent: after its end nothing is ever received from it or written to it. *)
Lemma C26_reply_rejected_dropped_pf :
  forall max min auth co D evs s log,
  rp_run max min auth co D rp_init evs = (s, log) ->
  (forall before c w after, log = before ++ RAuthReply c w :: after ->
     (exists input token more, after = RAuthed c input token :: more /\ w = [x01; x01]) \/
     (exists more, after = RGone c :: more /\ (w = [] \/ w = [x01; x00]))) /\
  (forall before x after c, log = before ++ x :: after -> acts_on c x -> ~ In c (ended before)).
Proof.
  intros max min auth co D evs s L R. split; [eapply run_reps; eauto|eapply run_dead; eauto].
Qed.

(*@prop C26 (reply socket): in every state with a pending handshake on connection [cid], if the client's auth frame arrives with a token
    [a] rejects (in pieces that do not crash the auth codec, C02; writes succeed), the client receives exactly the reject frame 01 00 and its connection is dropped; if [a]
    accepts it, the client receives the ack frame 01 01 and is served. *)
Lemma C26_reply_verdict_pf :
  forall max min a co D s k cid addr token frame input,
  nth_error (rp_auths s) k = Some (cid, addr) ->
  auth_frame token frame -> Forall delivery input -> received input = frame -> existsb (fatal_cut (blen token)) (cuts 0 input) = false ->
  let (s', new) := rp_act max min (Some a) co D s (VAuth k input true) in
  if a token then exists more, new = [RAuthReply cid [x01; x01]; RAuthed cid input token; ROpen cid addr] ++ more /\
    (exists p, mget addr (rp_peers s') = Some p /\ pr_open p = true /\ pr_cid p = cid)
  else new = [RAuthReply cid [x01; x00]; RGone cid] /\ rp_peers s' = rp_peers s /\ rp_auths s' = firstn k (rp_auths s) ++ skipn (S k) (rp_auths s).
Proof.
  intros max min a co D s k cid addr token frame input Nt Hf Hd Hr Hc. cbn [rp_act]. unfold rp_auth. rewrite Nt.
  destruct (auth_server_reads a true token frame input Hf Hd Hr Hc) as [rest ->]. destruct (a token).
  - cbn [rp_insert]. eexists. split; [reflexivity|]. eexists. cbn [rp_with_peers rp_peers]. rewrite mget_set_eq. split; [reflexivity|]. split; reflexivity.
  - split; [reflexivity|]. split; reflexivity.
Qed.

(*@example *)
Lemma C26_reply_example_pf :
  forall D, let a := (fun t => match t with [x41] => true | _ => false end) in
  let r := rp_run None 0 (Some a) None D rp_init
       [VAccept; VConn 0 (Some (Some 7)); VAccept; VConn 0 (Some (Some 9)); VAuth 0 [IoData [x01; x00]; IoPending; IoData [x00; x00; x01; x41]] true;
        VAuth 0 (rx_auth [x42]) true; VPeer 7 (rx_penv (NxMsg (rr_new 3 x00 [x41])))] in
  snd r = [RAccepted 0; RAccepted 1; RAuthReply 0 [x01; x01]; RAuthed 0 [IoData [x01; x00]; IoPending; IoData [x00; x00; x01; x41]] [x41]; ROpen 0 7;
           RAuthReply 1 [x01; x00]; RGone 1; RIncoming 0 7 0 (rr_new 3 x00 [x41]); RYield (mkReq 7 0 [x41])].
Proof. intros D. vm_compute. reflexivity. Qed.

(*@prop C27 is violated: when a client connects from an address that a connected client has, the latter is thrown out.  On IPC
    all clients have the same address (the listener's path), so at most one client is served at a time. *)
Lemma C27_same_address_evicts_refuted_pf :
  (forall D, exists evs s log,
     rp_run None 0 None None D rp_init evs = (s, log) /\ In (ROpen 0 7) log /\ In (ROpen 1 7) log /\ In (RReplaced 0) log /\ live log = [1]) /\
  (forall max min auth co D evs s log path,
     rp_run max min auth co D rp_init evs = (s, log) ->
     (forall k a, In (VConn k (Some (Some a))) evs -> a = path) -> (served s <= 1)%nat).
Proof.
  split.
  - intros D. exists [VAccept; VConn 0 (Some (Some 7)); VAccept; VConn 0 (Some (Some 7))]. eexists _, _. split; [vm_compute; reflexivity|].
    split; [inlog|]. split; [inlog|]. split; [cbn; tauto|reflexivity].
  - intros max min auth co D evs s L path R C. apply (onekey_served path).
    + apply (run_inv1 max min auth co D) in R. apply R.
    + eapply onekey_run; [|intros ev Hev|exact R]; [split; [discriminate|intros ? ? []]|]. destruct ev as [ | |k [[a|]|]| | | | |]; cbn; auto. eapply C; eauto.
Qed.

(*@prop C27 (what holds): no step other than one of client [a]'s own connection, or one that opens a connection with the same
    address, changes anything about client [a]: it stays connected, with the same requests and queued responses. *)
Lemma C27_clients_isolated_partial_pf :
  forall max min auth co D s ev s' new a p,
  rp_act max min auth co D s ev = (s', new) -> mget a (rp_peers s) = Some p ->
  (forall e, ev <> VPeer a e) -> (forall c, ~ In (ROpen c a) new) ->
  mget a (rp_peers s') = Some p.
Proof.
  intros max min auth co D s ev s' o a p H G N1 N2. eapply act_other; eauto. destruct ev; cbn; auto. intros ->. eapply N1; reflexivity.
Qed.

(*@example *)
Lemma C27_example_pf :
  forall D, let s := fst (rp_run None 0 None None D rp_init rx_hist) in
  exists p, mget 7 (rp_peers s) = Some p /\ pr_open p = true /\
  mget 7 (rp_peers (fst (rp_run None 0 None None D s [VAccept; VConn 0 (Some (Some 8)); VPeer 9 (rx_penv NxErr)]))) = Some p.
Proof. intros D. eexists. split; [vm_compute; reflexivity|]. split; reflexivity. Qed.

Lemma taken_in m L : In m (taken_frames L) -> exists c, In m (handed_on c L).
Proof.
  unfold taken_frames. rewrite in_flat_map. intros (x & Hx & H). destruct x as [| | | | |c m0 [|]| | | | | | | | | | | |]; try contradiction. destruct H as [<-|[]].
  exists c. unfold handed_on. rewrite in_flat_map. exists (RHanded c m0 true). split; [exact Hx|]. destruct (eq_dec c c); [left; reflexivity|congruence].
Qed.

(*@prop C21 (reply socket) is violated: bytes_tx is too small by one byte (the wire id) for every frame.  Exact law: in every history,
    bytes_tx + number of frames taken by connections = number of bytes of their encodings (payloads below 4 GiB); and bytes_rx
    is the sum of the lengths of the (compressed) payloads of the received requests that could be decompressed. *)
Lemma C21_reply_bytes_partial_pf :
  forall max min auth co D evs s log,
  rp_run max min auth co D rp_init evs = (s, log) ->
  ((forall m, In m (taken_frames log) -> blen (rr_payload m) < 2 ^ 32) ->
   rp_tx s + N.of_nat (length (taken_frames log)) = sum_len (map rr_encode (taken_frames log))) /\
  rp_rx s = sum_len (flat_map (fun x => let '(_, _, m) := x in
                      if try_decompress D (rr_ctype m) (rr_payload m) then [rr_payload m] else []) (incoming log)).
Proof.
  intros max min auth co D evs s L R. destruct (run_inv3 max min auth co D evs s L R) as ((I & Q & A & F & T) & Y & Dr & X). split.
  - intros Hs. unfold txs in X. rewrite X. destruct F as (F1 & F2 & F3 & F4 & F5 & F6).
    assert (Hsz : forall m, In m (taken_frames L) -> rr_payload_size m = blen (rr_payload m)).
    { intros m Hm. specialize (Hs m Hm). destruct (taken_in _ _ Hm) as [c Hc]. destruct (F5 c) as [rest E].
      assert (Hq : In m (map snd (queued_on c L))) by (rewrite E; apply in_or_app; left; exact Hc).
      apply in_map_iff in Hq. destruct Hq as ([r m'] & <- & Hq). apply queued_in in Hq. destruct (F1 _ _ _ Hq) as (a & req & x & _ & _ & Ro). cbn [snd] in *.
      assert (exists id ct p, m' = rr_new id ct p) as (id & ct & p & ->).
      { unfold rep_outgoing in Ro. destruct co as [cm|]; [destruct (cmp_fun cm x); [|discriminate]|]; inversion Ro; eauto. }
      unfold rr_payload_size, rr_new in *. cbn [rr_hdr rrh_size rr_payload] in *. unfold as_u32. apply N.mod_small. exact Hs. }
    clear - Hsz. revert Hsz. induction (taken_frames L) as [|m l IH]; intros Hsz; [reflexivity|]. cbn [fold_right map sum_len length].
    fold (sum_len (map rr_encode l)). rewrite <- IH by (intros m' Hm'; apply Hsz; right; exact Hm').
    rewrite T_Req.encode_len. unfold rr_size. rewrite (Hsz m (or_introl eq_refl)). lia.
  - destruct (run_yord max min auth co D evs s L R) as [_ ->]. induction (incoming L) as [|[[a r] m] l IH]; [reflexivity|].
    cbn [fold_right flat_map]. rewrite IH. destruct (try_decompress D (rr_ctype m) (rr_payload m)); reflexivity.
Qed.

(*@prop C21 (reply socket): a witness of the violation. *)
Lemma C21_reply_bytes_tx_refuted_pf :
  forall D, let r := rp_run None 0 None None D rp_init rx_hist in
  rp_tx (fst r) = 21 /\ sum_len (map rr_encode (taken_frames (snd r))) = 23.
Proof. intros D. evals. Qed.

(*@prop C57 (reply driver): from every reachable state, if a poll of the driver is still running after the iterations [ds], nothing new happened outside and
    each connection gave enough answers, then their number is at most the number of open clients + twice the pending handshakes
    + three times the pending accepts.  So the poll returns. *)
Lemma C57_reply_poll_returns_pf :
  forall max min auth co D evs s log ds s' new,
  rp_run max min auth co D rp_init evs = (s, log) ->
  (forall d, In d ds -> quiet d) -> (forall d a, In d ds -> (work a s < length (d_peers d a))%nat) ->
  rp_poll max min auth co D ds s = (s', new, false) ->
  (length ds <= served s + 2 * length (rp_auths s) + 3 * length (rp_conns s))%nat.
Proof.
  intros max min auth co D evs s L ds s' o R Q W P. eapply (poll_quiet max min auth co D ds); eauto. apply (run_inv1 max min auth co D) in R. apply R.
Qed.

(*@example *)
Lemma C57_reply_example_pf :
  forall D, let s := fst (rp_run None 0 None None D rp_init (rx_start ++ [VRespond 1 [x62]; VAccept])) in
  quiet rx_quiet /\ (work 9 s < 8)%nat /\ served s = 2%nat /\ length (rp_conns s) = 1%nat /\
  snd (rp_poll None 0 None None D [mkDenv [] (fun _ => repeat (rx_penv NxPending) 8) None (Some (0%nat, Some (Some 5))) false; rx_quiet] s) = true.
Proof.
  intros D. split; [split; [reflexivity|]; intros a e H; apply repeat_spec in H; subst; left; reflexivity|].
  split; [vm_compute; lia|]. evals.
Qed.

(*@prop C58: in every history, the requests the application received, followed by those still in the channel, are - in order of
    arrival, each once - the frames received (unless lost), with the address of their connection and the decompressed payload;
    and a frame is lost only if it cannot be decompressed, the socket was dropped, or 1024 requests were waiting. *)
Lemma C58_requests_yielded_faithfully_pf :
  forall max min auth co D evs s log,
  rp_run max min auth co D rp_init evs = (s, log) ->
  (~ In RSocketDropped log -> got log ++ rp_chan s =
     flat_map (fun x => let '(addr, rid, m) := x in
       if smem rid (lost_rids log) then [] else
       match try_decompress D (rr_ctype m) (rr_payload m) with Some p => [mkReq addr rid p] | None => [] end) (incoming log)) /\
  (forall before r after, log = before ++ RLost r :: after ->
     exists b c a m, before = b ++ [RIncoming c a r m] /\
       (try_decompress D (rr_ctype m) (rr_payload m) = None \/ In RSocketDropped b \/
        exists waiting, yielded b = got b ++ waiting /\ 1024 <= blen waiting)) /\
  NoDup (map (fun x => snd (fst x)) (incoming log)).
Proof.
  intros max min auth co D evs s L R. destruct (run_inv3 max min auth co D evs s L R) as (_ & (Y1 & Y2 & Y3 & Y4 & Y5 & Y6) & _). split; [|split].
  - intros Nd. destruct (rp_dropped s) eqn:Dr; [exfalso; apply Nd, Y5; reflexivity|]. rewrite (Y3 eq_refl), Y2. apply flat_map_ext. intros [[a r] m]. reflexivity.
  - exact Y6.
  - eapply run_rids; eauto.
Qed.

(*@example *)
Lemma C58_example_pf :
  forall D, let r := rp_run None 0 None None D rp_init rx_start in
  got (snd r) = [mkReq 7 0 [x41]; mkReq 9 1 [x42]] /\ lost_rids (snd r) = [] /\
  lost_rids (snd (rp_run None 0 None None D rp_init (rx_start ++ [VPeer 7 (rx_penv (NxMsg (rr_new 5 xff [x41])))]))) = [2].
Proof. intros D. evals. Qed.
