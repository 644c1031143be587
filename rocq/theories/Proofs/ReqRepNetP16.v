(** The joint model of a request and a reply socket: every event in which somebody does his job brings rest nearer or changes nothing that matters. *)
From Coq Require Import ZArith Permutation Sorting.Sorted.
From Verif Require Import Model.Base Model.Map Model.Framed Model.WireReqRep Model.WireAuth Model.Compression Model.Backoff Model.Handshake Model.ReqDriver Model.RepDriver Model.Net Model.ReqRepNet
  Spec.Wire Spec.Stream Spec.AuthSpec Spec.CompressSpec Spec.ReqSpec Spec.RepSpec Spec.NetSpec Spec.NetSpec3 Spec.NetSpec4 Spec.NetSpec7
  Proofs.BaseP Proofs.MapP Proofs.FramedP Proofs.FramedP2 Proofs.ReqRepP Proofs.AuthP Proofs.NetP
  Proofs.ReqDriverP Proofs.RepDriverP Proofs.RepDriverP2 Proofs.RepDriverP3 Proofs.RepDriverP5 Proofs.RepDriverP6 Proofs.RepNetP Proofs.ReqRepNetP Proofs.ReqRepNetP2 Proofs.ReqRepNetP3 Proofs.ReqRepNetP4 Proofs.ReqRepNetP5 Proofs.ReqRepNetP6 Proofs.ReqRepNetP7 Proofs.ReqRepNetP8 Proofs.ReqRepNetP9 Proofs.ReqRepNetP10 Proofs.ReqRepNetP11 Proofs.ReqRepNetP15.
From Verif Require Proofs.T_Req Proofs.T_Rep Proofs.T_Compress.
Local Open Scope N_scope.

Definition core (addr l : N) (y : sys) :=
  (rd_cmds (sy_c y), rd_egress (sy_c y), rp_chan (sy_s y), rp_held (sy_s y), rp_os (sy_s y),
   option_map (fun p => (pr_pending p, pr_egress p)) (mget addr (rp_peers (sy_s y))),
   option_map (fun k : rlink => (en_items (lk_c k), en_sent (lk_c k), en_items (lk_s k), en_sent (lk_s k))) (mget l (sy_links y))).
Definition bytes_left (l : N) (y : sys) : nat :=
  match mget l (sy_links y) with Some k => (length (pp_todo (en_in (lk_c k))) + length (pp_todo (en_in (lk_s k))))%nat | None => 0%nat end.
Definition load (l : N) (y : sys) : nat :=
  (length (rp_chan (sy_s y)) + length (rd_cmds (sy_c y)) + length (rd_egress (sy_c y)) +
  match mget l (sy_links y) with Some k => (length (en_sent (lk_c k)) - length (en_items (lk_s k)))%nat | None => 0%nat end)%nat.
Definition less (addr l : N) (y' y : sys) : Prop :=
  (W addr l y' < W addr l y \/ (W addr l y' = W addr l y /\ bytes_left l y' < bytes_left l y))%nat.

(** What connection [l] needs to do work. *)
Definition kr (y : sys) : Prop := rp_chan (sy_s y) <> [].
Definition ks (addr l : N) (y : sys) : Prop := forall p k, mget addr (rp_peers (sy_s y)) = Some p -> mget l (sy_links y) = Some k ->
  pr_egress p <> [] \/ (exists e, In e (pr_pending p) /\ os_done (rp_os (sy_s y)) e = true) \/ en_items (lk_s k) <> en_sent (lk_c k).
Definition kc (l : N) (y : sys) : Prop := forall k, mget l (sy_links y) = Some k -> rd_cmds (sy_c y) <> [] \/ rd_egress (sy_c y) <> [] \/ en_items (lk_c k) <> en_sent (lk_s k).
Definition strict (addr l : N) (y : sys) (ev : yev) : Prop :=
  (client_turn l y ev /\ kc l y) \/ (server_turn l y ev /\ ks addr l y) \/ (ev = YRecv /\ kr y) \/ (exists rid x, ev = YRespond rid x /\ In rid (rp_held (sy_s y))).

Section C.
Variables (o : ropts) (token : option bytes) (cco : option compressor)
          (max : option N) (min : N) (auth : option (bytes -> bool)) (sco : option compressor) (D : decompressors).
Notation run := (y_run o token cco max min auth sco D).
Notation step := (y_step o token cco max min auth sco D).
Notation act := (rp_act max min auth sco D).

Definition moved (f : bytes -> bytes) (cid l addr : N) (y y' : sys) (st : Prop) : Prop :=
  (exists p' k', conn_at y' cid l addr p' k') /\ (load l y' <= load l y)%nat /\
  (exists a, sy_clog y' = sy_clog y ++ a /\ Forall fine_client a) /\
  (exists b, sy_slog y' = sy_slog y ++ b /\ forall L, (forall z, In z (sy_slog y') -> In z L) -> Forall (fine_server f L) b) /\
  (replies_fit sco (sy_slog y) -> replies_fit sco (sy_slog y')) /\
  (forall l', l' <> l -> mget l' (sy_links y') = mget l' (sy_links y)) /\
  (less addr l y' y \/ (core addr l y' = core addr l y /\ bytes_left l y' = bytes_left l y /\ ~ st)).

Lemma stay f cid l addr p k y st : conn_at y cid l addr p k -> ~ st -> moved f cid l addr y y st.
Proof using.
  intros H S. split; [eauto|]. split; [lia|]. split; [exists []; cbn; rewrite app_nil_r; auto|]. split; [exists []; rewrite app_nil_r; split; [reflexivity|]; intros; constructor|].
  split; [auto|]. split; [auto|]. right. auto.
Qed.

Lemma recv_moved f cid l addr p k y : conn_at y cid l addr p k -> moved f cid l addr y (step y YRecv) (kr y).
Proof using.
  intros (H1 & H2 & H3 & H4 & H5 & H6 & H7 & H8 & H9 & H10). cbn [y_step]. unfold y_serve. cbn [rp_act]. destruct (rp_chan (sy_s y)) as [|q rest] eqn:E; cbn [fold_left route].
  - split; [exists p, k; unfold conn_at; cbn; auto 12|]. split; [unfold load; cbn; lia|].
    split; [exists []; cbn; rewrite app_nil_r; auto|]. split; [exists []; split; [reflexivity|]; intros L _; repeat constructor|].
    split; [cbn; rewrite app_nil_r; auto|]. split; [reflexivity|]. right. split; [reflexivity|]. split; [reflexivity|]. unfold kr. congruence.
  - split; [exists p, k; unfold conn_at; cbn; auto 12|]. split; [unfold load; cbn; rewrite E, H9; cbn [length]; lia|].
    split; [exists []; cbn; rewrite app_nil_r; auto|]. split; [exists [RReceived q]; split; [reflexivity|]; intros L _; repeat constructor|].
    split; [intros Ro rid x Hx; cbn in Hx; apply in_app_or in Hx; destruct Hx as [Hx|[Hx|[]]]; [eapply Ro; exact Hx|discriminate]|].
    split; [reflexivity|]. left. left. unfold W; cbn; rewrite E, H6, H9; cbn [length]; lia.
Qed.

Lemma respond_moved f cid l addr p k y rid src q : conn_at y cid l addr p k -> In (RReceived (mkReq src rid q)) (sy_slog y) -> reply_fits sco (f q) ->
  moved f cid l addr y (step y (YRespond rid (f q))) (In rid (rp_held (sy_s y))).
Proof using.
  intros (H1 & H2 & H3 & H4 & H5 & H6 & H7 & H8 & H9 & H10) Hq Hf. cbn [y_step]. unfold y_serve. cbn [rp_act].
  destruct (smem rid (rp_held (sy_s y))) eqn:M.
  - apply smem_true in M. pose proof (sdel_length _ _ M) as Ln.
    assert (K : forall os b, let y' := mkSys (sy_c y) (rp_set_app (sy_s y) (rp_chan (sy_s y)) (sdel rid (rp_held (sy_s y))) os (rp_dropped (sy_s y))) (sy_links y) (sy_backlog y) (sy_cids y) (sy_cur y) (sy_task y)
      (sy_cevs y) (sy_clog y) (sy_sevs y ++ [VRespond rid (f q)]) (sy_slog y ++ [RResponded rid (f q) b]) in moved f cid l addr y y' (In rid (rp_held (sy_s y)))).
    { intros os b y'. split; [exists p, k; unfold conn_at; cbn; auto 12|]. split; [unfold load; cbn; lia|].
      split; [exists []; cbn; rewrite app_nil_r; auto|]. split; [exists [RResponded rid (f q) b]; split; [reflexivity|]; intros L HL; constructor; [|constructor]; cbn; exists src, q; split; [apply HL; cbn; apply in_or_app; left; exact Hq|reflexivity]|].
      split; [intros Ro r x Hx; cbn in Hx; apply in_app_or in Hx; destruct Hx as [Hx|[Hx|[]]]; [eapply Ro; exact Hx|]; inversion Hx; subst; exact Hf|].
      split; [reflexivity|]. left. left. unfold W; cbn; rewrite H6, H9; lia. }
    destruct (os_receiver (sy_s y) rid); cbn [fold_left route]; apply K.
  - apply smem_false in M. cbn [fold_left route]. split; [exists p, k; unfold conn_at; cbn; auto 12|]. split; [unfold load; cbn; lia|].
    split; [exists []; cbn; rewrite app_nil_r; auto|]. split; [exists []; split; [reflexivity|]; intros L _; repeat constructor|].
    split; [cbn; rewrite app_nil_r; auto|]. split; [reflexivity|]. right. split; [reflexivity|]. split; [reflexivity|]. exact M.
Qed.

(** ** The server's connection *)
Inductive peer_may (e : penv) (os : list (N * os_state)) (rid : N) (p : peer) (tx failed : N) : Prop :=
| PmWrite m q fl : pr_egress p = m :: q -> (forall n, peer_iter min sco (with_pnext e n) os rid p tx failed = (mkPeer (pr_cid p) (pr_pending p) q fl (pr_open p), tx + rr_size m, failed, [RHanded (pr_cid p) m true], PCont)) -> peer_may e os rid p tx failed
| PmQueue r id x m fl : In (r, id) (pr_pending p) -> mget r os = Some (OsSent x) -> rep_outgoing min sco id x = Some m ->
    (forall n, peer_iter min sco (with_pnext e n) os rid p tx failed = (mkPeer (pr_cid p) (unpend r (pr_pending p)) (pr_egress p ++ [m]) fl (pr_open p), tx, failed, [RQueued (pr_cid p) r m], PCont)) -> peer_may e os rid p tx failed
| PmNext pd fl : (p_ready e = true -> pr_egress p = []) -> ((length pd < length (pr_pending p))%nat \/ (pd = pr_pending p /\ (p_pref e <> None -> forall e, In e (pr_pending p) -> os_done os e = false))) ->
    (forall n, peer_iter min sco (with_pnext e n) os rid p tx failed =
      match n with
      | NxMsg m => (mkPeer (pr_cid p) (pd ++ [(rid, rr_id m)]) (pr_egress p) fl (pr_open p), tx, failed, [], PReq m)
      | NxErr => (mkPeer (pr_cid p) pd (pr_egress p) fl (pr_open p), tx, failed, [], PErr)
      | NxEof => (mkPeer (pr_cid p) pd (pr_egress p) fl (pr_open p), tx, failed, [], PNone)
      | NxPending => (mkPeer (pr_cid p) pd (pr_egress p) fl (pr_open p), tx, failed, [], PPend)
      end) -> peer_may e os rid p tx failed.

Lemma peer_may_case e os rid p tx failed : p_send e = true -> (forall r id x, In (r, id) (pr_pending p) -> mget r os = Some (OsSent x) -> reply_fits sco x) -> peer_may e os rid p tx failed.
Proof using.
  intros Sd Fit. destruct p as [c pd eg fl op]. cbn [pr_pending] in Fit. destruct e as [fo rdy sd pref nx]. cbn in Sd. subst sd.
  assert (Nw : (exists m q, rdy = true /\ eg = m :: q) \/ (if rdy then eg else []) = []) by (destruct rdy, eg; eauto).
  destruct Nw as [(m & q & -> & ->)|Ne].
  - apply (PmWrite _ _ _ _ _ _ m q true); [reflexivity|]. intros n. unfold peer_iter, with_pnext. destruct fl, fo; reflexivity.
  - assert (Ne' : rdy = true -> eg = []) by (intros ->; exact Ne).
    destruct (pick pref os pd) as [[r id]|] eqn:P.
    + destruct (pick_in _ _ _ _ P) as [Hin Hd]. destruct (mget r os) as [[|x|]|] eqn:G.
      2: { assert (E : exists m, rep_outgoing min sco id x = Some m). { destruct (Fit _ _ _ Hin G) as [_ X]. unfold rep_outgoing. destruct sco as [cm|]; [|eauto]. destruct (X cm eq_refl) as (z & -> & _). eauto. }
           destruct E as (m & E). apply (PmQueue _ _ _ _ _ _ r id x m (if fl && fo then false else fl)); try assumption. intros n. unfold peer_iter, with_pnext. destruct fl, fo; cbn [p_flush_ok p_ready p_send p_pref p_next pr_flush pr_egress pr_pending pr_cid pr_open andb]; rewrite Ne, P, G, E; reflexivity. }
      all: apply (PmNext _ _ _ _ _ _ (unpend r pd) (if fl && fo then false else fl)); [exact Ne'|left; cbn [pr_pending]; eapply unpend_length; eauto|];
        intros n; unfold peer_iter, with_pnext; destruct fl, fo; cbn [p_flush_ok p_ready p_send p_pref p_next pr_flush pr_egress pr_pending pr_cid pr_open andb]; rewrite Ne, P, G; destruct n; reflexivity.
    + apply (PmNext _ _ _ _ _ _ pd (if fl && fo then false else fl)); [exact Ne'|right; split; [reflexivity|intros Pn; apply (pick_none _ _ _ Pn P)]|].
      intros n; unfold peer_iter, with_pnext; destruct fl, fo; cbn [p_flush_ok p_ready p_send p_pref p_next pr_flush pr_egress pr_pending pr_cid pr_open andb]; rewrite Ne, P; destruct n; reflexivity.
Qed.

Lemma peer_moved f cid l addr p k y e i :
  conn_at y cid l addr p k ->
  (forall r id x, In (r, id) (pr_pending p) -> mget r (rp_os (sy_s y)) = Some (OsSent x) -> reply_fits sco x) ->
  rdir (lk_c k) (lk_s k) -> Forall rr_wf (en_sent (lk_c k)) -> en_hs (lk_s k) = en_greet (lk_c k) -> good (en_fr (lk_s k)) ->
  (forall m, In m (en_sent (lk_c k)) -> exists x, try_decompress D (rr_ctype m) (rr_payload m) = Some x) ->
  (load l y <= 1024)%nat -> p_send e = true -> data_only i ->
  moved f cid l addr y (step y (YPeer addr e i)) (server_turn l y (YPeer addr e i) /\ ks addr l y).
Proof using.
  intros Cn Fit R Wf Hs Gd Dc Ld Sd Di. pose proof Cn as (H1 & H2 & H3 & H4 & H5 & H6 & H7 & H8 & H9 & H10).
  assert (Lo : link_of (pr_cid p) y = Some (l, k)). { unfold link_of. rewrite H7. unfold client_connection in H4. rewrite H4, H9. reflexivity. }
  assert (Rf : forall b, (forall r x, ~ In (RResponded r x true) b) -> replies_fit sco (sy_slog y) -> replies_fit sco (sy_slog y ++ b)).
  { intros b Hb Ro r x Hx. apply in_app_or in Hx. destruct Hx as [Hx|Hx]; [eapply Ro; exact Hx|destruct (Hb _ _ Hx)]. }
  cbn [y_step]. unfold y_peer. rewrite H6, Lo. 
  destruct (peer_may_case e (rp_os (sy_s y)) (rp_next_rid (sy_s y)) p (rp_tx (sy_s y)) (rp_failed (sy_s y)) Sd Fit) as [m q fl Eg It|r id x m fl Hin Hx Em It|pd fl Eg Hpd It].
  - assert (Wn : wants_next min sco e (sy_s y) p = false) by (unfold wants_next; rewrite It; reflexivity).
    rewrite Wn, Bool.andb_false_r. erewrite serve_shape by (cbn [rp_act]; unfold rp_peer; rewrite H6, H8, It; reflexivity).
    cbn [fold_left route]. rewrite H7. unfold client_connection in H4. rewrite H4, H9.
    split; [eexists (mkPeer cid (pr_pending p) q fl true), _; unfold conn_at; cbn; rewrite !mget_set_eq, ?H7, ?H8; split; [exact H1|]; split; [exact H2|]; split; [exact H3|]; split; [exact H4|]; split; [first [exact H5|reflexivity]|]; repeat split; exact H10|].
    split; [unfold load; cbn; rewrite !mget_set_eq, H9; cbn; lia|].
    split; [exists []; cbn; rewrite app_nil_r; auto|]. split; [eexists; split; [reflexivity|]; intros L _; repeat constructor|].
    split; [apply Rf; intros ? ? [X|[]]; discriminate|]. split; [intros l' Hl; cbn; apply mget_set_ne; congruence|].
    left; left. unfold W; cbn; rewrite !mget_set_eq, H6, H9; cbn; rewrite Eg, app_length; cbn [length]; lia.
  - assert (Wn : wants_next min sco e (sy_s y) p = false) by (unfold wants_next; rewrite It; reflexivity).
    rewrite Wn, Bool.andb_false_r. erewrite serve_shape by (cbn [rp_act]; unfold rp_peer; rewrite H6, H8, It; reflexivity).
    cbn [fold_left route].
    split; [eexists (mkPeer cid (unpend r (pr_pending p)) (pr_egress p ++ [m]) fl true), k; unfold conn_at; cbn; rewrite !mget_set_eq, ?H7, ?H8; auto 12|].
    split; [unfold load; cbn; lia|].
    split; [exists []; cbn; rewrite app_nil_r; auto|]. split; [eexists; split; [reflexivity|]; intros L _; repeat constructor|].
    split; [apply Rf; intros ? ? [X|[]]; discriminate|]. split; [reflexivity|].
    left; left. unfold W; cbn; rewrite !mget_set_eq, H6, H9; cbn; rewrite app_length; pose proof (unpend_length _ _ _ Hin); cbn [length]; lia.
  - assert (Wn : wants_next min sco e (sy_s y) p = true) by (unfold wants_next; rewrite It; reflexivity).
    rewrite Wn, H8. cbn [andb]. destruct (pipe_offers i (en_in (lk_s k))) eqn:Of.
    2: { eapply stay; [exact Cn|]. intros [(_ & _ & k' & G' & (X & _)) _]. congruence. }
    destruct (poll_data _ _ i R Wf Hs Gd Di Of) as (rr & b' & Pl & (Gb & _) & Sb & Out). rewrite Pl.
    destruct Out as [(-> & Eb & Bt & Al)|(m & rest & -> & Eb & Es)].
    + erewrite serve_shape by (cbn [rp_act]; unfold rp_peer, set_link; cbn [sy_s]; rewrite H6, H8, It; cbn [next_of]; reflexivity).
      cbn [fold_left route set_link]. unfold set_link; cbn [sy_c sy_links sy_backlog sy_cids sy_cur sy_task sy_cevs sy_clog sy_sevs sy_slog].
      split; [eexists (mkPeer cid pd (pr_egress p) fl true), _; unfold conn_at; cbn; rewrite !mget_set_eq, ?H7, ?H8; split; [exact H1|]; split; [exact H2|]; split; [exact H3|]; split; [exact H4|]; split; [first [exact H5|reflexivity]|]; repeat split; exact Gb|].
      split; [unfold load; cbn; rewrite !mget_set_eq, H9; cbn; rewrite Eb; lia|].
      split; [exists []; cbn; rewrite app_nil_r; auto|]. split; [exists []; split; [reflexivity|]; intros L _; constructor|].
      split; [apply Rf; intros ? ? []|]. split; [intros l' Hl; cbn; apply mget_set_ne; congruence|].
      destruct Hpd as [Hpd|[-> Hn]]; [left; left; unfold W; cbn; rewrite !mget_set_eq, H6, H9; cbn; rewrite Eb, Sb; lia|].
      destruct i as [|x i].
      * right. split; [unfold core; cbn; rewrite !mget_set_eq, H6, H9; cbn; rewrite Eb, Sb; reflexivity|]. split; [unfold bytes_left; cbn; rewrite !mget_set_eq, H9; cbn; change (length (io_data [])) with 0%nat in Bt; lia|].
        intros [(Rd & Pn & k' & G' & _ & Td) Wk]. rewrite H9 in G'. inversion G'; subst k'. specialize (Td eq_refl). rewrite Td in Bt. change (length (io_data [])) with 0%nat in Bt. cbn in Bt.
        destruct (Wk _ _ H6 H9) as [X|[(z & Hz & Dn)|X]]; [apply X, Eg, Rd|rewrite (Hn Pn _ Hz) in Dn; discriminate|]. apply X, Al. destruct (pp_todo (en_in b')); [reflexivity|cbn in Bt; lia].
      * left. right. split; [unfold W; cbn; rewrite !mget_set_eq, H6, H9; cbn; rewrite Eb, Sb; lia|]. pose proof (data_received _ Di ltac:(discriminate)). unfold bytes_left; cbn; rewrite !mget_set_eq, H9; cbn [lk_c lk_s]. lia.
    + destruct (Dc m) as [x Dx]; [rewrite Es; apply in_or_app; right; left; reflexivity|].
      assert (Fu : (rep_chan_cap <=? blen (rp_chan (sy_s y))) = false).
      { unfold load in Ld. rewrite H9, Es, app_length in Ld. cbn [length] in Ld. apply N.leb_gt. unfold rep_chan_cap, blen. lia. }
      erewrite serve_shape by (cbn [rp_act]; unfold rp_peer, set_link; cbn [sy_s]; rewrite H6, H8, It; cbn [next_of]; unfold rp_on_request; rewrite Dx; cbn [rp_dropped rp_chan]; rewrite H5, Fu; reflexivity).
      cbn [app fold_left route]. unfold set_link; cbn [sy_c sy_links sy_backlog sy_cids sy_cur sy_task sy_cevs sy_clog sy_sevs sy_slog].
      split; [eexists (mkPeer cid (pd ++ [(rp_next_rid (sy_s y), rr_id m)]) (pr_egress p) fl true), _; unfold conn_at; cbn; rewrite !mget_set_eq, ?H7, ?H8; split; [exact H1|]; split; [exact H2|]; split; [exact H3|]; split; [exact H4|]; split; [first [exact H5|reflexivity]|]; repeat split; exact Gb|].
      split; [unfold load; cbn; rewrite !mget_set_eq, H9; cbn; rewrite Eb, Es, !app_length; cbn [length]; lia|].
      split; [exists []; cbn; rewrite app_nil_r; auto|]. split; [eexists; split; [reflexivity|]; intros L _; repeat constructor|].
      split; [apply Rf; intros ? ? [X|[X|[]]]; discriminate|]. split; [intros l' Hl; cbn; apply mget_set_ne; congruence|].
      left; left. unfold W; cbn. rewrite !mget_set_eq, H6, H9. cbn. rewrite Eb, Sb, Es, !app_length. cbn [length]. destruct Hpd as [Hpd|[-> Hn]]; lia.
Qed.

(** ** The client *)
Lemma flush_any e s : exists b, rd_do_flush o e s = set_flush s b.
Proof using.
  unfold rd_do_flush. destruct s as [? ? ? ? cn ? ? fl ? ? ? ?]; cbn. destruct fl; [|exists false; reflexivity].
  destruct (match ro_flush_interval o with Some _ => e_flush_tick e | None => true end); [|exists true; reflexivity]. destruct cn; [|exists true; reflexivity]. destruct (e_flush_ok e); [exists false|exists true]; reflexivity.
Qed.
Lemma flush_env e nx s : rd_do_flush o (with_next (with_task e None) nx) s = rd_do_flush o (with_task e None) s.
Proof using. reflexivity. Qed.

Lemma client_moved f cid l addr p k y e fails tio nio :
  conn_at y cid l addr p k -> rd_task (sy_c y) = false ->
  rdir (lk_s k) (lk_c k) -> Forall rr_wf (en_sent (lk_s k)) -> en_hs (lk_c k) = en_greet (lk_s k) -> good (en_fr (lk_c k)) ->
  (forall m, In m (en_sent (lk_s k)) -> exists x, try_decompress D (rr_ctype m) (rr_payload m) = Some x) ->
  (rd_cmds (sy_c y) <> [] -> mget (rd_id (sy_c y)) (rd_pending (sy_c y)) = None) ->
  (length (en_items (lk_s k)) <= length (en_sent (lk_c k)))%nat ->
  e_send e = true -> e_ticks e = 0%nat -> e_close e = false -> data_only nio ->
  moved f cid l addr y (step y (YClient e fails tio nio)) (client_turn l y (YClient e fails tio nio) /\ kc l y).
Proof using.
  intros Cn Tk R Wf Hs Gd Dc Pn Le Sd Ti Cl Di. pose proof Cn as (H1 & H2 & H3 & H4 & H5 & H6 & H7 & H8 & H9 & H10).
  cbn [y_step]. unfold y_client. rewrite H1. unfold y_task. rewrite Tk. cbv zeta.
  destruct (flush_any (with_task e None) (sy_c y)) as [b Fl].
  assert (Sh : rd_do_task (with_task e None) (rd_do_flush o (with_task e None) (sy_c y)) = (set_flush (sy_c y) b, [])).
  { rewrite Fl. unfold rd_do_task. cbn [rd_task set_flush]. rewrite Tk. reflexivity. }
  rewrite Sh. cbn [fst]. change (rd_conn (set_flush (sy_c y) b)) with (rd_conn (sy_c y)). rewrite H2, H3. unfold y_next. rewrite H9.
  destruct (pipe_offers nio (en_in (lk_c k))) eqn:Of.
  2: { eapply stay; [exact Cn|]. intros [(_ & _ & k' & G' & (X & _)) _]. congruence. }
  destruct (poll_data _ _ nio R Wf Hs Gd Di Of) as (rr & b' & Pl & _ & Sb & Out). rewrite Pl.
  assert (CS : forall nx, rd_step o cco D (sy_c y) (EIter (with_next (with_task e None) nx)) = (let '(s3, o3, _) := rd_do_active o cco D (with_next (with_task e None) nx) (set_flush (sy_c y) b) in (s3, o3))).
  { intros nx. cbn [rd_step]. rewrite H1. unfold rd_iter. rewrite flush_env, Fl. unfold rd_do_task. cbn [rd_task set_flush]. rewrite Tk. cbn [rd_conn set_flush]. rewrite H2. destruct (rd_do_active _ _ _ _ _) as [[s3 o3] c]. reflexivity. }
  rewrite CS. unfold rd_do_active.
  assert (Rf : replies_fit sco (sy_slog y) -> replies_fit sco (sy_slog y)) by auto.
  destruct Out as [(-> & Eb & Bt & Al)|(m & rest & -> & Eb & Es)]; cbn [next_of with_next with_task e_next e_now].
  - cbn [with_next with_task e_ready e_send e_ticks e_recv e_close e_now set_flush rd_egress]. rewrite Sd, Ti.
    assert (Nw : (exists m q, e_ready e = true /\ rd_egress (sy_c y) = m :: q) \/ (if e_ready e then rd_egress (sy_c y) else []) = []) by (destruct (e_ready e), (rd_egress (sy_c y)); eauto).
    destruct Nw as [(m & q & Er & Eg)|Ne].
    + rewrite Er, Eg. cbn [rd_id rd_pending set_flush rd_egress rd_cmds rd_dropped rd_task rd_conn rd_flush rd_tx rd_rx rd_rtts rd_done sent_frames flat_map app y_send]. rewrite H2, mget_set_eq.
      split; [eexists p, _; unfold conn_at; cbn; rewrite !mget_set_eq; split; [exact H1|]; repeat (split; [first [reflexivity|assumption]|]); exact H10|].
      split; [unfold load; cbn; rewrite !mget_set_eq, H9, Eg; cbn; rewrite Sb, app_length; cbn [length]; lia|].
      split; [eexists; cbn; split; [reflexivity|]; repeat constructor|]. split; [exists []; cbn; rewrite app_nil_r; split; [reflexivity|]; intros L _; constructor|].
      split; [exact Rf|]. split; [intros l' Hl; cbn; rewrite !mget_set_ne by congruence; reflexivity|].
      left; left. unfold W; cbn; rewrite !mget_set_eq, H9, Eg; cbn; rewrite Eb, Sb, app_length; cbn [length]; lia.
    + rewrite Ne. cbn [rd_ticks]. unfold rd_do_command. cbn [e_recv e_now e_close with_next with_task set_flush rd_cmds].
      assert (Nw : (exists c pl cs, e_recv e = true /\ rd_cmds (sy_c y) = (c, pl) :: cs) \/ (e_recv e = false \/ rd_cmds (sy_c y) = [])) by (destruct (e_recv e), (rd_cmds (sy_c y)) as [|[? ?] ?]; eauto 7).
      destruct Nw as [(c & pl & cs & Er & Cm)|Nc].
      * rewrite Er, Cm. assert (Pq : mget (rd_id (sy_c y)) (rd_pending (sy_c y)) = None) by (apply Pn; congruence).
        unfold rd_on_command. cbn [rd_id rd_pending set_flush rd_egress rd_dropped rd_task rd_conn rd_flush rd_tx rd_rx rd_rtts rd_done].
        change (rr_id (req_into_wire (rd_id (sy_c y)) (req_outgoing (ro_min_compress o) cco pl))) with (rd_id (sy_c y)). rewrite Pq, H2. cbn [app].
        cbn [sent_frames flat_map y_send]. cbn [rd_conn]. rewrite mget_set_eq.
        split; [eexists p, _; unfold conn_at; cbn; rewrite !mget_set_eq; split; [exact H1|]; repeat (split; [first [reflexivity|assumption]|]); exact H10|].
        split; [unfold load; cbn; rewrite !mget_set_eq, H9, Cm; cbn; rewrite Sb, !app_length; cbn [length]; lia|].
        split; [eexists; cbn; split; [reflexivity|]; repeat constructor|]. split; [exists []; cbn; rewrite app_nil_r; split; [reflexivity|]; intros L _; constructor|].
        split; [exact Rf|]. split; [intros l' Hl; cbn; rewrite !mget_set_ne by congruence; reflexivity|].
        left; left. unfold W; cbn; rewrite !mget_set_eq, H9, Cm; cbn; rewrite Eb, Sb, !app_length; cbn [length]; lia.
      * assert (Q : (if e_recv e then match rd_cmds (sy_c y) with | [] => if rd_dropped (set_flush (sy_c y) b) then if e_close e then let (s', os) := rd_finish (set_flush (sy_c y) b) in (s', os, CDone) else (set_flush (sy_c y) b, [], CPending) else (set_flush (sy_c y) b, [], CPending)
           | (c, payload) :: rest => let (s', os) := rd_on_command o cco (e_now e) (set_flush (sy_c y) b) rest c payload in (s', os, CContinue) end else (set_flush (sy_c y) b, [], CPending)) = (set_flush (sy_c y) b, [], CPending)).
        { rewrite Cl. destruct (e_recv e); [|reflexivity]. destruct Nc as [X| ->]; [discriminate|]. destruct (rd_dropped _); reflexivity. }
        rewrite Q. clear Q. cbn [rd_id rd_pending set_flush rd_egress rd_cmds rd_dropped rd_task rd_conn rd_flush rd_tx rd_rx rd_rtts rd_done sent_frames flat_map app y_send]. rewrite H2, mget_set_eq.
        split; [eexists p, _; unfold conn_at; cbn; rewrite !mget_set_eq; split; [exact H1|]; repeat (split; [first [reflexivity|assumption]|]); exact H10|].
        split; [unfold load; cbn; rewrite !mget_set_eq, H9; cbn; rewrite Sb, app_nil_r; lia|].
        split; [eexists; cbn; split; [reflexivity|]; repeat constructor|]. split; [exists []; cbn; rewrite app_nil_r; split; [reflexivity|]; intros L _; constructor|].
        split; [exact Rf|]. split; [intros l' Hl; cbn; rewrite !mget_set_ne by congruence; reflexivity|].
        destruct nio as [|x nio].
        -- right. split; [unfold core; cbn; rewrite !mget_set_eq, H9; cbn; rewrite Eb, Sb, app_nil_r; reflexivity|]. split; [unfold bytes_left; cbn; rewrite !mget_set_eq, H9; cbn; rewrite app_nil_r; change (length (io_data [])) with 0%nat in Bt; lia|].
           intros [(Rd & Rv & k' & G' & _ & Td) Wk]. rewrite H9 in G'. inversion G'; subst k'. specialize (Td eq_refl). rewrite Td in Bt. change (length (io_data [])) with 0%nat in Bt. cbn in Bt.
           destruct (Wk _ H9) as [X|[X|X]]; [destruct Nc; congruence|rewrite Rd in Ne; congruence|]. apply X, Al. destruct (pp_todo (en_in b')); [reflexivity|cbn in Bt; lia].
        -- left. right. split; [unfold W; cbn; rewrite !mget_set_eq, H9; cbn; rewrite Eb, Sb, app_nil_r; lia|]. pose proof (data_received _ Di ltac:(discriminate)). unfold bytes_left; cbn; rewrite !mget_set_eq, H9; cbn; rewrite app_nil_r. lia.
  - destruct (Dc m) as [x Dx]; [rewrite Es; apply in_or_app; right; left; reflexivity|].
    unfold rd_on_message. cbn [rd_pending set_flush]. rewrite Dx. destruct (mget (rr_id m) (rd_pending (sy_c y))) as [[st c]|];
      cbn [rd_id rd_pending set_flush rd_egress rd_cmds rd_dropped rd_task rd_conn rd_flush rd_tx rd_rx rd_rtts rd_done sent_frames flat_map app y_send]; rewrite H2, mget_set_eq.
    all: split; [eexists p, _; unfold conn_at; cbn; rewrite !mget_set_eq; split; [exact H1|]; repeat (split; [first [reflexivity|assumption]|]); exact H10|].
    all: split; [unfold load; cbn; rewrite !mget_set_eq, H9; cbn; rewrite Sb, app_nil_r; lia|].
    all: split; [eexists; cbn; split; [reflexivity|]; repeat constructor|]; split; [exists []; cbn; rewrite app_nil_r; split; [reflexivity|]; intros L _; constructor|].
    all: split; [exact Rf|]; split; [intros l' Hl; cbn; rewrite !mget_set_ne by congruence; reflexivity|].
    all: left; left; unfold W; cbn; rewrite !mget_set_eq, H9; cbn; rewrite Eb, Sb, Es, app_nil_r, !app_length; cbn [length]; lia.
Qed.
End C.
