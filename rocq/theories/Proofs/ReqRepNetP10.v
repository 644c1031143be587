(** The joint model of a request and a reply socket: from every connected state there is a way to rest. *)
From Coq Require Import ZArith Permutation Sorting.Sorted.
From Verif Require Import Model.Base Model.Map Model.Framed Model.WireReqRep Model.WireAuth Model.Compression Model.Backoff Model.Handshake Model.ReqDriver Model.RepDriver Model.Net Model.ReqRepNet
  Spec.Wire Spec.Stream Spec.AuthSpec Spec.CompressSpec Spec.ReqSpec Spec.RepSpec Spec.NetSpec Spec.NetSpec3 Spec.NetSpec4
  Proofs.BaseP Proofs.MapP Proofs.FramedP Proofs.FramedP2 Proofs.ReqRepP Proofs.AuthP Proofs.NetP
  Proofs.ReqDriverP Proofs.RepDriverP Proofs.RepDriverP2 Proofs.RepDriverP5 Proofs.RepDriverP6 Proofs.RepNetP Proofs.ReqRepNetP Proofs.ReqRepNetP2 Proofs.ReqRepNetP3 Proofs.ReqRepNetP4 Proofs.ReqRepNetP5 Proofs.ReqRepNetP6 Proofs.ReqRepNetP7 Proofs.ReqRepNetP8 Proofs.ReqRepNetP9.
From Verif Require Proofs.T_Req Proofs.T_Rep Proofs.T_Compress.
Local Open Scope N_scope.

Lemma now_data b : data_only (now_io b).
Proof. unfold now_io. destruct (pp_todo (en_in b)) as [|x t]; intros i Hi; [contradiction|]. destruct Hi as [<-|[]]. eauto. Qed.

Section C.
Variables (o : ropts) (token : option bytes) (cco : option compressor)
          (max : option N) (min : N) (auth : option (bytes -> bool)) (sco : option compressor) (D : decompressors).
Hypothesis TOK : forall t, token = Some t -> blen t < 2 ^ 32.
Hypothesis IC : forall cm, cco = Some cm -> inverse_of D cm.
Hypothesis IS : forall cm, sco = Some cm -> inverse_of D cm.
Notation YI := (YI o token cco max min auth sco D).
Notation LOK := (link_ok token auth).
Notation run := (y_run o token cco max min auth sco D).
Notation step := (y_step o token cco max min auth sco D).
Notation serve := (y_serve max min auth sco D).
Notation act := (rp_act max min auth sco D).

(** ** Frames fit *)

Lemma acc_frame evs c m : requests_fit cco evs -> In (c, m) (acc_of (run evs)) -> blen (rr_payload m) < 2 ^ 32 /\ exists p, try_decompress D (rr_ctype m) (rr_payload m) = Some p.
Proof using TOK IC.
  clear IS. intros [Lt Fit] Am. apply In_nth_error in Am. destruct Am as (n & Am).
  destruct (acc_ids o token cco max min auth sco D (run evs) (y_inv o token cco max min auth sco D TOK evs)) as [_ Pk]; [rewrite run_asked; exact Lt|].
  destruct (Pk _ _ _ Am) as (p & Hp & -> & _). rewrite run_asked in Hp. apply nth_error_In in Hp. destruct (Fit _ _ Hp) as [F1 F2].
  assert (E : exists ct q, req_into_wire (N.of_nat n) (req_outgoing (ro_min_compress o) cco p) = rr_new (N.of_nat n) ct q /\ blen q < 2 ^ 32).
  { unfold req_into_wire. eexists _, _. split; [reflexivity|]. unfold req_outgoing. destruct (ro_min_compress o <? blen p); [|exact F1]. destruct cco as [cm|]; [|exact F1]. unfold om_compress. cbn [om_payload om_new].
    destruct (cmp_fun cm p) as [q|] eqn:E; [|exact F1]. cbn. eapply F2; eauto. }
  split. { destruct E as (ct & q & -> & H). exact H. }
  exists p. clear - IC. unfold req_into_wire, req_outgoing, rr_ctype, rr_new; cbn [rr_hdr rrh_ctype rr_payload].
  destruct (ro_min_compress o <? blen p); [|reflexivity]. destruct cco as [cm|]; [|reflexivity].
  unfold om_compress. cbn [om_payload om_new]. destruct (cmp_fun cm p) as [q|] eqn:E; [|reflexivity]. cbn. apply T_Compress.decompress_inverse; auto.
Qed.

Lemma queued_fit L s c r m : inv2 min sco L s -> replies_fit sco L -> In (RQueued c r m) L -> blen (rr_payload m) < 2 ^ 32.
Proof using.
  clear TOK IC IS. intros (_ & _ & _ & (F1 & _) & _) Ro H. destruct (F1 _ _ _ H) as (a & req & x & _ & Hr & E). destruct (Ro _ _ Hr) as [X1 X2].
  unfold rep_outgoing in E. destruct sco as [cm|]; [|inversion E; exact X1]. destruct (X2 cm eq_refl) as (z & Ez & Lz). rewrite Ez in E. inversion E; subst. exact Lz.
Qed.
Lemma in_queued_on c L m : In m (map snd (queued_on c L)) -> exists r, In (RQueued c r m) L.
Proof using.
  clear. unfold queued_on. rewrite in_map_iff. intros ((r & m') & E & H). cbn in E. subst m'. apply in_flat_map in H. destruct H as (x & Hx & H). destruct x as [| | |c' r' m'| | | | | | | | | | | | | |]; try contradiction.
  destruct (eq_dec c' c); [|contradiction]. destruct H as [H|[]]. inversion H; subst. eauto.
Qed.
Lemma fits evs : requests_fit cco evs -> replies_fit sco (sy_slog (run evs)) -> frames_fit (run evs).
Proof using TOK IC.
  clear IS. intros Rq Ro. pose proof (y_inv o token cco max min auth sco D TOK evs) as Y. split; intros m Hm.
  - assert (X : In m (map snd (acc_of (run evs)))) by (eapply (taken_acc o token cco max min auth sco D); eauto). apply in_map_iff in X. destruct X as ((c & m') & E & X). cbn in E. subst m'. eapply acc_frame; eauto.
  - pose proof Y as (_ & _ & (S1 & _)). pose proof (run_inv2 max min auth sco D _ _ _ S1) as I2. pose proof I2 as (_ & _ & _ & (_ & _ & _ & _ & F5 & _) & _).
    unfold taken_frames in Hm. apply in_flat_map in Hm. destruct Hm as (x & Hx & Hm). destruct x as [| | | | |c m' [|]| | | | | | | | | | | |]; try contradiction. destruct Hm as [<-|[]].
    destruct (F5 c) as (rest & E). assert (X : In m' (map snd (queued_on c (sy_slog (run evs))))).
    { rewrite E. apply in_or_app; left. unfold handed_on. apply in_flat_map. eexists. split; [exact Hx|]. cbn. destruct (eq_dec c c); [left; reflexivity|congruence]. }
    apply in_queued_on in X. destruct X as (r & X). eapply queued_fit; eauto.
Qed.

(** ** The measure *)
Definition W (addr l : N) (y : sys) : nat :=
  8 * length (rd_cmds (sy_c y)) + 7 * length (rd_egress (sy_c y)) + 2 * length (rp_chan (sy_s y)) + length (rp_held (sy_s y)) +
  match mget addr (rp_peers (sy_s y)) with Some p => 3 * length (pr_pending p) + 2 * length (pr_egress p) | None => 0 end +
  match mget l (sy_links y) with Some k => 6 * (length (en_sent (lk_c k)) - length (en_items (lk_s k))) + (length (en_sent (lk_s k)) - length (en_items (lk_c k))) | None => 0 end.

(** ** One step *)
Definition conn_at (y : sys) (cid l addr : N) (p : peer) (k : rlink) : Prop :=
  rd_done (sy_c y) = false /\ rd_conn (sy_c y) = RActive /\ sy_cur y = Some l /\ client_connection y cid l /\
  rp_dropped (sy_s y) = false /\ mget addr (rp_peers (sy_s y)) = Some p /\ pr_cid p = cid /\ pr_open p = true /\
  mget l (sy_links y) = Some k /\ fr_errored (en_fr (lk_s k)) = false.
Definition better (f : bytes -> bytes) (cid l addr : N) (y y' : sys) : Prop :=
  (exists p' k', conn_at y' cid l addr p' k') /\ (W addr l y' < W addr l y)%nat /\
  (exists a, sy_clog y' = sy_clog y ++ a /\ Forall fine_client a) /\
  (exists b, sy_slog y' = sy_slog y ++ b /\ forall L, (forall z, In z (sy_slog y') -> In z L) -> Forall (fine_server f L) b) /\
  (replies_fit sco (sy_slog y) -> replies_fit sco (sy_slog y')) /\
  (forall l', l' <> l -> mget l' (sy_links y') = mget l' (sy_links y)).

Lemma recv_better f cid l addr p k y q rest : conn_at y cid l addr p k -> rp_chan (sy_s y) = q :: rest -> better f cid l addr y (step y YRecv).
Proof using.
  clear TOK IC IS. intros (H1 & H2 & H3 & H4 & H5 & H6 & H7 & H8 & H9 & H10) E. cbn [y_step]. unfold y_serve. cbn [rp_act]. rewrite E. cbn [fold_left route].
  split; [exists p, k; unfold conn_at; cbn; auto 12|]. split; [unfold W; cbn; rewrite E, H6, H9; cbn [length]; lia|].
  split; [exists []; rewrite app_nil_r; auto|]. split; [exists [RReceived q]; split; [reflexivity|]; intros L _; repeat constructor|].
  split; [|reflexivity]. intros Ro rid x Hx. cbn in Hx. apply in_app_or in Hx. destruct Hx as [Hx|[Hx|[]]]; [eapply Ro; exact Hx|discriminate].
Qed.

Lemma sdel_length (a : N) l : In a l -> (length (sdel a l) < length l)%nat.
Proof using. clear. intros H. unfold sdel. revert H. induction l as [|b l IH]; [intros []|]. intros [->|H]; cbn [remove length].
  - destruct (eq_dec a a); [|congruence]. clear. induction l as [|b l IH]; cbn [remove length]; [lia|]. destruct (eq_dec a b); cbn [length]; lia.
  - specialize (IH H). destruct (eq_dec a b); cbn [length]; lia.
Qed.
Lemma respond_better f cid l addr p k y rid src q : conn_at y cid l addr p k -> In rid (rp_held (sy_s y)) -> In (RReceived (mkReq src rid q)) (sy_slog y) -> reply_fits sco (f q) ->
  better f cid l addr y (step y (YRespond rid (f q))).
Proof using.
  clear TOK IC IS. intros (H1 & H2 & H3 & H4 & H5 & H6 & H7 & H8 & H9 & H10) Hh Hq Hf. cbn [y_step]. unfold y_serve. cbn [rp_act].
  assert (M : smem rid (rp_held (sy_s y)) = true) by (apply smem_true; exact Hh). rewrite M. pose proof (sdel_length _ _ Hh) as Ln.
  assert (K : forall os b, let y' := mkSys (sy_c y) (rp_set_app (sy_s y) (rp_chan (sy_s y)) (sdel rid (rp_held (sy_s y))) os (rp_dropped (sy_s y))) (sy_links y) (sy_backlog y) (sy_cids y) (sy_cur y) (sy_task y)
      (sy_cevs y) (sy_clog y) (sy_sevs y ++ [VRespond rid (f q)]) (sy_slog y ++ [RResponded rid (f q) b]) in better f cid l addr y y').
  { intros os b y'. split; [exists p, k; unfold conn_at; cbn; auto 12|]. split; [unfold W; cbn; rewrite H6, H9; lia|].
    split; [exists []; rewrite app_nil_r; auto|]. split; [exists [RResponded rid (f q) b]; split; [reflexivity|]; intros L HL; constructor; [|constructor]; cbn; exists src, q; split; [apply HL; cbn; apply in_or_app; left; exact Hq|reflexivity]|].
    split; [|reflexivity]. intros Ro r x Hx. cbn in Hx. apply in_app_or in Hx. destruct Hx as [Hx|[Hx|[]]]; [eapply Ro; exact Hx|]. inversion Hx; subst. exact Hf. }
  destruct (os_receiver (sy_s y) rid); cbn [fold_left route]; apply K.
Qed.

(** A peer iteration with a willing transport. *)
Definition penv0 : penv := mkPenv true true true (Some 0) NxPending.
Lemma unpend_length r id (l : list (N * N)) : In (r, id) l -> (length (unpend r l) < length l)%nat.
Proof using.
  clear. unfold unpend. assert (Le : forall l : list (N * N), (length (filter (fun e : N * N => negb (N.eqb (fst e) r)) l) <= length l)%nat) by (intros m; induction m as [|x m IHm]; cbn; [lia|destruct (negb _); cbn; lia]).
  induction l as [|[r' id'] l IH]; [intros []|]. intros [E|H]; cbn [filter fst].
  - inversion E; subst. rewrite N.eqb_refl. cbn [negb length]. pose proof (Le l). lia.
  - destruct (negb (r' =? r)); cbn [length]; [specialize (IH H)|pose proof (Le l)]; lia.
Qed.
Lemma pick_in pref os l e : pick pref os l = Some e -> In e l /\ os_done os e = true.
Proof using.
  clear. unfold pick. set (d := filter (os_done os) l). intros H. destruct pref as [k|]; [|discriminate]. assert (X : In e d).
  { destruct (find (fun e0 => fst e0 =? k) d) as [e0|] eqn:F; [inversion H; subst; apply find_some in F; apply F|]. destruct d; [discriminate|]. inversion H; subst. left; reflexivity. }
  unfold d in X. apply filter_In in X. exact X.
Qed.
Lemma pick_none pref os l : pref <> None -> pick pref os l = None -> forall e, In e l -> os_done os e = false.
Proof using.
  clear. unfold pick. destruct pref as [k|]; [intros _|congruence]. intros H e He. destruct (os_done os e) eqn:Dn; [exfalso|reflexivity]. assert (X : In e (filter (os_done os) l)) by (apply filter_In; auto).
  destruct (find _ _); [discriminate|]. destruct (filter (os_done os) l); [contradiction|discriminate].
Qed.

Inductive peer_does (os : list (N * os_state)) (rid : N) (p : peer) (tx failed : N) : Prop :=
| PdWrite m q fl : pr_egress p = m :: q -> (forall n, peer_iter min sco (with_pnext penv0 n) os rid p tx failed = (mkPeer (pr_cid p) (pr_pending p) q fl (pr_open p), tx + rr_size m, failed, [RHanded (pr_cid p) m true], PCont)) -> peer_does os rid p tx failed
| PdQueue r id x m fl : pr_egress p = [] -> In (r, id) (pr_pending p) -> mget r os = Some (OsSent x) -> rep_outgoing min sco id x = Some m ->
    (forall n, peer_iter min sco (with_pnext penv0 n) os rid p tx failed = (mkPeer (pr_cid p) (unpend r (pr_pending p)) [m] fl (pr_open p), tx, failed, [RQueued (pr_cid p) r m], PCont)) -> peer_does os rid p tx failed
| PdNext pd fl : pr_egress p = [] -> ((length pd < length (pr_pending p))%nat \/ (pd = pr_pending p /\ forall e, In e (pr_pending p) -> os_done os e = false)) ->
    (forall n, peer_iter min sco (with_pnext penv0 n) os rid p tx failed =
      match n with
      | NxMsg m => (mkPeer (pr_cid p) (pd ++ [(rid, rr_id m)]) [] fl (pr_open p), tx, failed, [], PReq m)
      | NxErr => (mkPeer (pr_cid p) pd [] fl (pr_open p), tx, failed, [], PErr)
      | NxEof => (mkPeer (pr_cid p) pd [] fl (pr_open p), tx, failed, [], PNone)
      | NxPending => (mkPeer (pr_cid p) pd [] fl (pr_open p), tx, failed, [], PPend)
      end) -> peer_does os rid p tx failed.

Lemma peer_case os rid p tx failed : (forall r id x, In (r, id) (pr_pending p) -> mget r os = Some (OsSent x) -> reply_fits sco x) -> peer_does os rid p tx failed.
Proof using.
  clear TOK IC IS. intros Fit. destruct p as [c pd eg fl op]. cbn [pr_pending] in Fit.
  destruct eg as [|m q].
  - destruct (pick (Some 0) os pd) as [[r id]|] eqn:P.
    + destruct (pick_in _ _ _ _ P) as [Hin Hd]. destruct (mget r os) as [[|x|]|] eqn:G.
      2: { assert (E : exists m, rep_outgoing min sco id x = Some m). { destruct (Fit _ _ _ Hin G) as [_ X]. unfold rep_outgoing. destruct sco as [cm|]; [|eauto]. destruct (X cm eq_refl) as (z & -> & _). eauto. }
           destruct E as (m & E). eapply (PdQueue _ _ _ _ _ r id x m); try eassumption; [reflexivity|]. intros n. unfold peer_iter, with_pnext, penv0. destruct fl; cbn [p_flush_ok p_ready p_send p_pref p_next pr_flush pr_egress pr_pending pr_cid pr_open andb]; rewrite P, G, E; reflexivity. }
      all: apply (PdNext _ _ _ _ _ (unpend r pd) false); [reflexivity|left; cbn [pr_pending]; eapply unpend_length; eauto|];
        intros n; unfold peer_iter, with_pnext, penv0; destruct fl; cbn [p_flush_ok p_ready p_send p_pref p_next pr_flush pr_egress pr_pending pr_cid pr_open andb]; rewrite P, G; destruct n; reflexivity.
    + apply (PdNext _ _ _ _ _ pd false); [reflexivity|right; split; [reflexivity|apply (pick_none (Some 0) os pd ltac:(discriminate) P)]|].
      intros n; unfold peer_iter, with_pnext, penv0; destruct fl; cbn [p_flush_ok p_ready p_send p_pref p_next pr_flush pr_egress pr_pending pr_cid pr_open andb]; rewrite P; destruct n; reflexivity.
  - apply (PdWrite _ _ _ _ _ m q true); [reflexivity|]. intros n. unfold peer_iter, with_pnext, penv0. destruct fl; reflexivity.
Qed.

Lemma serve_shape ev y s' os : act (sy_s y) ev = (s', os) -> serve ev y =
  mkSys (sy_c y) s' (fold_left (route (sy_cids y)) os (sy_links y)) (sy_backlog y) (sy_cids y) (sy_cur y) (sy_task y) (sy_cevs y) (sy_clog y) (sy_sevs y ++ [ev]) (sy_slog y ++ os).
Proof using. clear TOK IC IS. intros E. unfold y_serve. rewrite E. reflexivity. Qed.

Lemma peer_better f cid l addr p k y :
  conn_at y cid l addr p k ->
  (forall r id x, In (r, id) (pr_pending p) -> mget r (rp_os (sy_s y)) = Some (OsSent x) -> reply_fits sco x) ->
  rdir (lk_c k) (lk_s k) -> Forall rr_wf (en_sent (lk_c k)) -> en_hs (lk_s k) = en_greet (lk_c k) -> good (en_fr (lk_s k)) ->
  (forall m, In m (en_sent (lk_c k)) -> exists x, try_decompress D (rr_ctype m) (rr_payload m) = Some x) ->
  rp_chan (sy_s y) = [] ->
  (pr_egress p <> [] \/ (exists e, In e (pr_pending p) /\ os_done (rp_os (sy_s y)) e = true) \/ en_items (lk_s k) <> en_sent (lk_c k)) ->
  better f cid l addr y (step y (YPeer addr penv0 (now_io (lk_s k)))).
Proof using.
  clear TOK IC IS. intros (H1 & H2 & H3 & H4 & H5 & H6 & H7 & H8 & H9 & H10) Fit R Wf Hs Gd Dc Ch Wk.
  assert (Lo : link_of (pr_cid p) y = Some (l, k)). { unfold link_of. rewrite H7. unfold client_connection in H4. rewrite H4, H9. reflexivity. }
  assert (Rf : forall b, (forall r x, ~ In (RResponded r x true) b) -> replies_fit sco (sy_slog y) -> replies_fit sco (sy_slog y ++ b)).
  { intros b Hb Ro r x Hx. apply in_app_or in Hx. destruct Hx as [Hx|Hx]; [eapply Ro; exact Hx|destruct (Hb _ _ Hx)]. }
  cbn [y_step]. unfold y_peer. rewrite H6, Lo. 
  destruct (peer_case (rp_os (sy_s y)) (rp_next_rid (sy_s y)) p (rp_tx (sy_s y)) (rp_failed (sy_s y)) Fit) as [m q fl Eg It|r id x m fl Eg Hin Hx Em It|pd fl Eg Hpd It].
  - assert (Wn : wants_next min sco penv0 (sy_s y) p = false) by (unfold wants_next; rewrite It; reflexivity).
    rewrite Wn, Bool.andb_false_r. erewrite serve_shape by (cbn [rp_act]; unfold rp_peer; rewrite H6, H8, It; reflexivity).
    cbn [fold_left route]. rewrite H7. unfold client_connection in H4. rewrite H4, H9.
    split; [eexists (mkPeer cid (pr_pending p) q fl true), _; unfold conn_at; cbn; rewrite !mget_set_eq, ?H7, ?H8; split; [exact H1|]; split; [exact H2|]; split; [exact H3|]; split; [exact H4|]; split; [first [exact H5|reflexivity]|]; repeat split; exact H10|].
    split; [unfold W; cbn; rewrite !mget_set_eq, H6, H9; cbn; rewrite Eg, app_length; cbn [length]; lia|].
    split; [exists []; cbn; rewrite app_nil_r; auto|]. split; [eexists; split; [reflexivity|]; intros L _; repeat constructor|].
    split; [apply Rf; intros ? ? [X|[]]; discriminate|]. intros l' Hl. cbn. apply mget_set_ne. congruence.
  - assert (Wn : wants_next min sco penv0 (sy_s y) p = false) by (unfold wants_next; rewrite It; reflexivity).
    rewrite Wn, Bool.andb_false_r. erewrite serve_shape by (cbn [rp_act]; unfold rp_peer; rewrite H6, H8, It; reflexivity).
    cbn [fold_left route].
    split; [eexists (mkPeer cid (unpend r (pr_pending p)) [m] fl true), k; unfold conn_at; cbn; rewrite !mget_set_eq, ?H7, ?H8; auto 12|].
    split; [unfold W; cbn; rewrite !mget_set_eq, H6, H9; cbn; rewrite Eg; pose proof (unpend_length _ _ _ Hin); cbn [length]; lia|].
    split; [exists []; cbn; rewrite app_nil_r; auto|]. split; [eexists; split; [reflexivity|]; intros L _; repeat constructor|].
    split; [apply Rf; intros ? ? [X|[]]; discriminate|]. reflexivity.
  - assert (Wn : wants_next min sco penv0 (sy_s y) p = true) by (unfold wants_next; rewrite It; reflexivity).
    rewrite Wn, H8, now_offered. cbn [andb]. destruct (poll_now _ _ R Wf Hs Gd) as (rr & b' & Pl & (Gb & _) & Out). rewrite Pl.
    assert (Sb : en_sent b' = en_sent (lk_s k)). { unfold rr_poll, end_poll in Pl. destruct (framed_poll _ _ _ _) as [[r0 f0] i0]. inversion Pl; subst. reflexivity. }
    destruct Out as [(-> & Ei & Eb)|(m & rest & -> & Eb & Es)].
    + erewrite serve_shape by (cbn [rp_act]; unfold rp_peer, set_link; cbn [sy_s]; rewrite H6, H8, It; cbn [next_of]; reflexivity).
      cbn [fold_left route set_link]. unfold set_link; cbn [sy_c sy_links sy_backlog sy_cids sy_cur sy_task sy_cevs sy_clog sy_sevs sy_slog].
      split; [eexists (mkPeer cid pd [] fl true), _; unfold conn_at; cbn; rewrite !mget_set_eq, ?H7, ?H8; split; [exact H1|]; split; [exact H2|]; split; [exact H3|]; split; [exact H4|]; split; [first [exact H5|reflexivity]|]; repeat split; exact Gb|].
      split. { unfold W; cbn. rewrite !mget_set_eq, H6, H9. cbn. rewrite Eg, Eb, Sb. destruct Hpd as [Hpd|[-> Hn]]; [cbn [length]; lia|]. exfalso. destruct Wk as [Wk|[(e & He & Dn)|Wk]]; [congruence| |congruence]. rewrite (Hn e He) in Dn. discriminate. }
      split; [exists []; cbn; rewrite app_nil_r; auto|]. split; [exists []; split; [reflexivity|]; intros L _; constructor|].
      split; [apply Rf; intros ? ? []|]. intros l' Hl. cbn. apply mget_set_ne. congruence.
    + destruct (Dc m) as [x Dx]; [rewrite Es; apply in_or_app; right; left; reflexivity|].
      erewrite serve_shape by (cbn [rp_act]; unfold rp_peer, set_link; cbn [sy_s]; rewrite H6, H8, It; cbn [next_of]; unfold rp_on_request; rewrite Dx; cbn [rp_dropped rp_chan]; rewrite H5, Ch; reflexivity).
      cbn [app fold_left route]. unfold set_link; cbn [sy_c sy_links sy_backlog sy_cids sy_cur sy_task sy_cevs sy_clog sy_sevs sy_slog].
      split; [eexists (mkPeer cid (pd ++ [(rp_next_rid (sy_s y), rr_id m)]) [] fl true), _; unfold conn_at; cbn; rewrite !mget_set_eq, ?H7, ?H8; split; [exact H1|]; split; [exact H2|]; split; [exact H3|]; split; [exact H4|]; split; [first [exact H5|reflexivity]|]; repeat split; exact Gb|].
      split. { unfold W; cbn. rewrite !mget_set_eq, H6, H9, Ch. cbn. rewrite Eg, Eb, Sb, Es, !app_length. cbn [length]. destruct Hpd as [Hpd|[-> Hn]]; lia. }
      split; [exists []; cbn; rewrite app_nil_r; auto|]. split; [eexists; split; [reflexivity|]; intros L _; repeat constructor|].
      split; [apply Rf; intros ? ? [X|[X|[]]]; discriminate|]. intros l' Hl. cbn. apply mget_set_ne. congruence.
Qed.

(** An iteration of the client's driver with a willing transport. *)
Definition env0 (now : N) : env := mkEnv now true true None NxPending true true 0 true false.
Lemma flush_shape e s : rd_conn s = RActive -> e_flush_tick e = true -> e_flush_ok e = true -> rd_do_flush o e s = set_flush s false.
Proof using.
  clear TOK IC IS. intros H1 H2 H3. unfold rd_do_flush. rewrite H1, H2, H3. destruct s as [? ? ? ? ? ? ? fl ? ? ? ?]; cbn. destruct fl, (ro_flush_interval o); reflexivity.
Qed.
Lemma client_shape now nx s : rd_conn s = RActive -> rd_task s = false -> rd_done s = false ->
  rd_step o cco D s (EIter (with_next (with_task (env0 now) None) nx)) = (let '(s3, o3, _) := rd_do_active o cco D (with_next (with_task (env0 now) None) nx) (set_flush s false) in (s3, o3)).
Proof using.
  clear TOK IC IS. intros H1 H2 H3. cbn [rd_step]. rewrite H3. unfold rd_iter. rewrite flush_shape by (try reflexivity; exact H1).
  unfold rd_do_task. cbn [rd_task set_flush]. rewrite H2. cbn [rd_conn set_flush]. rewrite H1.
  destruct (rd_do_active _ _ _ _ _) as [[s3 o3] c]. reflexivity.
Qed.
Lemma client_better f now cid l addr p k y :
  conn_at y cid l addr p k -> rd_task (sy_c y) = false ->
  rdir (lk_s k) (lk_c k) -> Forall rr_wf (en_sent (lk_s k)) -> en_hs (lk_c k) = en_greet (lk_s k) -> good (en_fr (lk_c k)) ->
  (forall m, In m (en_sent (lk_s k)) -> exists x, try_decompress D (rr_ctype m) (rr_payload m) = Some x) ->
  (rd_cmds (sy_c y) <> [] -> mget (rd_id (sy_c y)) (rd_pending (sy_c y)) = None) ->
  (rd_cmds (sy_c y) <> [] \/ rd_egress (sy_c y) <> [] \/ en_items (lk_c k) <> en_sent (lk_s k)) ->
  better f cid l addr y (step y (YClient (env0 now) false [] (now_io (lk_c k)))).
Proof using.
  clear TOK IC IS. intros (H1 & H2 & H3 & H4 & H5 & H6 & H7 & H8 & H9 & H10) Tk R Wf Hs Gd Dc Pn Wk.
  destruct (poll_now _ _ R Wf Hs Gd) as (rr & b' & Pl & _ & Out).
  assert (Sb : en_sent b' = en_sent (lk_c k)). { unfold rr_poll, end_poll in Pl. destruct (framed_poll _ _ _ _) as [[r0 f0] i0]. inversion Pl; subst. reflexivity. }
  cbn [y_step]. unfold y_client. rewrite H1. unfold y_task. rewrite Tk. cbv zeta.
  assert (Sh : rd_do_task (with_task (env0 now) None) (rd_do_flush o (with_task (env0 now) None) (sy_c y)) = (set_flush (sy_c y) false, [])).
  { rewrite flush_shape by (try reflexivity; exact H2). unfold rd_do_task. cbn [rd_task set_flush]. rewrite Tk. reflexivity. }
  rewrite Sh. cbn [fst]. change (rd_conn (set_flush (sy_c y) false)) with (rd_conn (sy_c y)). rewrite H2, H3. unfold y_next. rewrite H9, now_offered, Pl.
  rewrite client_shape by assumption. unfold rd_do_active.
  assert (Rf : replies_fit sco (sy_slog y) -> replies_fit sco (sy_slog y)) by auto.
  destruct Out as [(-> & Ei & Eb)|(m & rest & -> & Eb & Es)]; cbn [next_of with_next with_task e_next e_now].
  - cbn [with_next with_task env0 e_ready e_send e_ticks e_recv e_close e_now set_flush rd_egress]. destruct (rd_egress (sy_c y)) as [|m q] eqn:Eg.
    + cbn [rd_ticks]. unfold rd_do_command. cbn [e_recv e_now with_next with_task env0 set_flush rd_cmds]. destruct (rd_cmds (sy_c y)) as [|[c pl] cs] eqn:Cm.
      { exfalso. destruct Wk as [X|[X|X]]; congruence. }
      assert (Pq : mget (rd_id (sy_c y)) (rd_pending (sy_c y)) = None) by (apply Pn; discriminate).
      unfold rd_on_command. cbn [rd_id rd_pending set_flush rd_egress rd_dropped rd_task rd_conn rd_flush rd_tx rd_rx rd_rtts rd_done].
      change (rr_id (req_into_wire (rd_id (sy_c y)) (req_outgoing (ro_min_compress o) cco pl))) with (rd_id (sy_c y)). rewrite Pq, H2, Eg. cbn [app].
      cbn [sent_frames flat_map y_send]. cbn [rd_conn]. rewrite mget_set_eq.
      split; [eexists p, _; unfold conn_at; cbn; rewrite !mget_set_eq; split; [exact H1|]; repeat (split; [first [reflexivity|assumption]|]); exact H10|].
      split; [unfold W; cbn; rewrite !mget_set_eq, H9, Eg, Cm; cbn; rewrite Eb, Sb, app_nil_r; cbn [length]; lia|].
      split; [eexists; cbn; split; [reflexivity|]; repeat constructor|]. split; [exists []; cbn; rewrite app_nil_r; split; [reflexivity|]; intros L _; constructor|].
      split; [exact Rf|]. intros l' Hl. cbn. rewrite !mget_set_ne by congruence. reflexivity.
    + cbn [rd_id rd_pending set_flush rd_egress rd_cmds rd_dropped rd_task rd_conn rd_flush rd_tx rd_rx rd_rtts rd_done sent_frames flat_map app y_send]. rewrite H2, mget_set_eq.
      split; [eexists p, _; unfold conn_at; cbn; rewrite !mget_set_eq; split; [exact H1|]; repeat (split; [first [reflexivity|assumption]|]); exact H10|].
      split; [unfold W; cbn; rewrite !mget_set_eq, H9, Eg; cbn; rewrite Eb, Sb, app_length; cbn [length]; lia|].
      split; [eexists; cbn; split; [reflexivity|]; repeat constructor|]. split; [exists []; cbn; rewrite app_nil_r; split; [reflexivity|]; intros L _; constructor|].
      split; [exact Rf|]. intros l' Hl. cbn. rewrite !mget_set_ne by congruence. reflexivity.
  - destruct (Dc m) as [x Dx]; [rewrite Es; apply in_or_app; right; left; reflexivity|].
    unfold rd_on_message. cbn [rd_pending set_flush]. rewrite Dx. destruct (mget (rr_id m) (rd_pending (sy_c y))) as [[st c]|];
      cbn [rd_id rd_pending set_flush rd_egress rd_cmds rd_dropped rd_task rd_conn rd_flush rd_tx rd_rx rd_rtts rd_done sent_frames flat_map app y_send]; rewrite H2, mget_set_eq.
    all: split; [eexists p, _; unfold conn_at; cbn; rewrite !mget_set_eq; split; [exact H1|]; repeat (split; [first [reflexivity|assumption]|]); exact H10|].
    all: split; [unfold W; cbn; rewrite !mget_set_eq, H9; cbn; rewrite Eb, Sb, Es, app_nil_r, !app_length; cbn [length]; lia|].
    all: split; [eexists; cbn; split; [reflexivity|]; repeat constructor|]; split; [exists []; cbn; rewrite app_nil_r; split; [reflexivity|]; intros L _; constructor|].
    all: split; [exact Rf|]; intros l' Hl; cbn; rewrite !mget_set_ne by congruence; reflexivity.
Qed.
End C.
