(** The joint model of a request and a reply socket: from every connected state there is a way to rest, continued. *)
From Coq Require Import ZArith Permutation Sorting.Sorted.
From Verif Require Import Model.Base Model.Map Model.Framed Model.WireReqRep Model.WireAuth Model.Compression Model.Backoff Model.Handshake Model.ReqDriver Model.RepDriver Model.Net Model.ReqRepNet
  Spec.Wire Spec.Stream Spec.AuthSpec Spec.CompressSpec Spec.ReqSpec Spec.RepSpec Spec.NetSpec Spec.NetSpec3 Spec.NetSpec4
  Proofs.BaseP Proofs.MapP Proofs.FramedP Proofs.FramedP2 Proofs.ReqRepP Proofs.AuthP Proofs.NetP
  Proofs.ReqDriverP Proofs.RepDriverP Proofs.RepDriverP2 Proofs.RepDriverP3 Proofs.RepDriverP5 Proofs.RepDriverP6 Proofs.RepNetP Proofs.ReqRepNetP Proofs.ReqRepNetP2 Proofs.ReqRepNetP3 Proofs.ReqRepNetP4 Proofs.ReqRepNetP5 Proofs.ReqRepNetP6 Proofs.ReqRepNetP7 Proofs.ReqRepNetP8 Proofs.ReqRepNetP9 Proofs.ReqRepNetP10.
From Verif Require Proofs.T_Req Proofs.T_Rep Proofs.T_Compress.
Local Open Scope N_scope.

Section C.
Variables (o : ropts) (token : option bytes) (cco : option compressor)
          (max : option N) (min : N) (auth : option (bytes -> bool)) (sco : option compressor) (D : decompressors).
Hypothesis TOK : forall t, token = Some t -> blen t < 2 ^ 32.
Hypothesis IC : forall cm, cco = Some cm -> inverse_of D cm.
Hypothesis IS : forall cm, sco = Some cm -> inverse_of D cm.
Notation YI := (YI o token cco max min auth sco D).
Notation run := (y_run o token cco max min auth sco D).
Notation step := (y_step o token cco max min auth sco D).

Lemma next_id_free y : YI y -> blen (issued (sy_cevs y)) < 2 ^ 32 -> rd_cmds (sy_c y) <> [] -> mget (rd_id (sy_c y)) (rd_pending (sy_c y)) = None.
Proof using.
  clear TOK IC IS. intros Y Lt Cm. pose proof Y as ((C1 & _) & _). destruct (ReqDriverP.run_order o cco D _ _ _ C1) as (acc & rest & E & (O1 & O2 & O3 & O4) & _).
  destruct (mget (rd_id (sy_c y)) (rd_pending (sy_c y))) as [[t c]|] eqn:G; [exfalso|reflexivity].
  destruct (run_pend o cco D _ _ _ C1) as [Ps _]. destruct (Ps _ _ _ G) as (L1 & m & L2 & EL & Hi & _).
  destruct (acc_ids o token cco max min auth sco D y Y Lt) as [Ids _]. assert (Ln : length (acc_of y) = length acc) by (unfold acc_of; rewrite <- (map_length fst), O1, map_length; reflexivity).
  assert (Lc : (length acc < length (issued (sy_cevs y)))%nat). { rewrite E, !app_length. destruct (rd_cmds (sy_c y)); [congruence|cbn [length]; lia]. }
  assert (Hm : In (rr_id m) (map rr_id (map snd (acc_of y)))). { apply in_map. apply in_map_iff. exists (c, m). split; [reflexivity|]. unfold acc_of. rewrite EL, accepted_app. apply in_or_app; right. cbn. left; reflexivity. }
  rewrite Ids, Ln, Hi, O4 in Hm. unfold blen in Lt. rewrite N.mod_small in Hm by lia. apply in_map_iff in Hm. destruct Hm as (n & En & Hn). apply in_seq in Hn. lia.
Qed.

Lemma better_asked now ev evs : cooperative now ev -> asked (evs ++ [ev]) = asked evs.
Proof using. clear. intros H. unfold asked. rewrite flat_map_app. destruct ev; try contradiction; cbn; apply app_nil_r. Qed.

(** ** At rest, or a step that brings rest nearer *)
Lemma progress f now evs cid l addr p k : let y := run evs in
  requests_fit cco evs -> replies_fit sco (sy_slog y) -> (forall q, reply_fits sco (f q)) -> conn_at y cid l addr p k ->
  at_rest y cid l \/ exists ev, cooperative now ev /\ better sco f cid l addr y (step y ev).
Proof using TOK IC IS.
  intros y Rq Ro Rf Cn. pose proof Cn as (H1 & H2 & H3 & H4 & H5 & H6 & H7 & H8 & H9 & H10). unfold client_connection in H4.
  assert (Y : YI y) by (apply y_inv; exact TOK). assert (Ff : frames_fit y) by (apply (fits o token cco max min auth sco D TOK IC); assumption).
  assert (Lt : blen (issued (sy_cevs y)) < 2 ^ 32) by (unfold y; rewrite run_asked; apply Rq).
  pose proof Y as ((C1 & C2 & C3 & C4 & C5 & C6 & C7 & C8 & C9) & L & (S1 & S2 & S3 & S4 & S5 & S6 & S7)).
  pose proof (run_inv2 max min auth sco D _ _ _ S1) as (_ & _ & (_ & _ & _ & _ & A5) & Fr & _). pose proof Fr as (F1 & _ & _ & _ & F5 & _).
  destruct (run_gots max min auth sco D _ _ _ S1) as (_ & _ & Gh & _).
  destruct (rp_chan (sy_s y)) as [|q rest] eqn:Ch.
  2: { right. exists YRecv. split; [exact I|]. eapply recv_better; eauto. }
  destruct (rp_held (sy_s y)) as [|rid hs] eqn:Hd.
  2: { right. destruct (Gh rid) as (q & Hq & Er); [left; reflexivity|]. destruct q as [src r q]. cbn in Er. subst r. exists (YRespond rid (f q)). split; [exact I|].
       eapply respond_better; eauto. rewrite Hd. left; reflexivity. }
  pose proof (L _ _ H9) as Lk. pose proof Lk as (R1 & R2 & _).
  assert (Op : opn (sy_s y) cid) by (exists addr, p; auto).
  destruct (S6 _ _ _ H4 H9) as (B1 & B2 & _ & B4). specialize (B4 Op).
  assert (Oc : en_on (lk_c k) = true). { destruct (C5 _ H3) as (_ & k' & G' & On). congruence. }
  destruct (hs_both _ _ _ Lk Oc B4) as [Hs Hc].
  destruct (run_readers o token cco max min auth sco D TOK evs) as [Rc Rs]. fold y in Rc, Rs.
  assert (Gs : good (en_fr (lk_s k))). { destruct (Rs _ _ _ H4 H9 Op) as [X|X]; [exact X|]. unfold sfr in X. congruence. }
  assert (Gc : good (en_fr (lk_c k))) by (eapply Rc; eauto).
  assert (Wc : Forall rr_wf (en_sent (lk_c k))) by (eapply (sent_wf o token cco max min auth sco D); eauto).
  assert (Ws : Forall rr_wf (en_sent (lk_s k))) by (exact (proj1 (item_origin o token cco max min auth sco D y l k (rr_new 0 x00 []) Y Lt Ff H9))).
  assert (Dc : forall m, In m (en_sent (lk_c k)) -> exists x, try_decompress D (rr_ctype m) (rr_payload m) = Some x).
  { intros m Hm. assert (T : In m (taken (sy_clog y))) by (rewrite <- C7; eapply sents_in; eauto). apply (taken_acc o token cco max min auth sco D y m Y) in T. apply in_map_iff in T. destruct T as ((c & m') & E & T). cbn in E. subst m'.
    eapply (acc_frame o token cco max min auth sco D TOK IC); eauto. }
  assert (Ds : forall m, In m (en_sent (lk_s k)) -> exists x, try_decompress D (rr_ctype m) (rr_payload m) = Some x).
  { intros m Hm. rewrite B1 in Hm. unfold tak_on in Hm. apply in_flat_map in Hm. destruct Hm as (x & Hx & Hm). destruct x as [| | | | |c m' [|]| | | | | | | | | | | |]; try contradiction.
    destruct (eq_dec c cid) as [->|]; [|contradiction]. destruct Hm as [<-|[]].
    assert (X : In m' (map snd (queued_on cid (sy_slog y)))).
    { destruct (F5 cid) as (rest & E). rewrite E. apply in_or_app; left. unfold handed_on. apply in_flat_map. eexists. split; [exact Hx|]. cbn. destruct (eq_dec cid cid); [left; reflexivity|congruence]. }
    apply in_queued_on in X. destruct X as (r & X). destruct (F1 _ _ _ X) as (a & req & x & I1 & I2 & E). destruct (T_Rep.frame_answers min sco D _ _ _ _ _ _ _ I1 I2 E) as (a' & req' & x' & _ & _ & _ & Z). eauto. }
  assert (PB : (pr_egress p <> [] \/ (exists e, In e (pr_pending p) /\ os_done (rp_os (sy_s y)) e = true) \/ en_items (lk_s k) <> en_sent (lk_c k)) -> exists ev, cooperative now ev /\ better sco f cid l addr y (step y ev)).
  { intros Wk. exists (YPeer addr penv0 (now_io (lk_s k))). split; [split; [reflexivity|]; split; [reflexivity|]; split; [reflexivity|apply now_data]|].
    eapply (peer_better o token cco max min auth sco D); eauto. intros r id x Hp Hx. eapply Ro. apply A5. exact Hx. }
  assert (CB : (rd_cmds (sy_c y) <> [] \/ rd_egress (sy_c y) <> [] \/ en_items (lk_c k) <> en_sent (lk_s k)) -> exists ev, cooperative now ev /\ better sco f cid l addr y (step y ev)).
  { intros Wk. exists (YClient (env0 now) false [] (now_io (lk_c k))). split. { cbn. repeat (split; [reflexivity|]). apply now_data. }
    eapply (client_better o token cco max min auth sco D); eauto; [apply (conn_ok o cco D _ _ _ C1); assumption|]. apply next_id_free; assumption. }
  destruct (pr_egress p) as [|m eg] eqn:Eg; [|right; apply PB; left; discriminate].
  destruct (existsb (os_done (rp_os (sy_s y))) (pr_pending p)) eqn:Od; [apply existsb_exists in Od; right; apply PB; right; left; exact Od|].
  destruct (dir_items _ _ R1 Wc (or_introl Hs)) as [r1 E1]. destruct r1 as [|m1 r1]; [rewrite app_nil_r in E1|right; apply PB; right; right; rewrite E1; intros X; apply (f_equal (@length rr_msg)) in X; rewrite app_length in X; cbn in X; lia].
  destruct (dir_items _ _ R2 Ws (or_introl Hc)) as [r2 E2]. destruct r2 as [|m2 r2]; [rewrite app_nil_r in E2|right; apply CB; right; right; rewrite E2; intros X; apply (f_equal (@length rr_msg)) in X; rewrite app_length in X; cbn in X; lia].
  destruct (rd_cmds (sy_c y)) as [|c cs] eqn:Cm; [|right; apply CB; left; discriminate].
  destruct (rd_egress (sy_c y)) as [|c cs] eqn:Ce; [|right; apply CB; right; left; discriminate].
  left. split; [exists k; split; [exact H9|]; split; [exact Oc|]; split; [exact B4|]; split; eapply all_items; eauto|].
  split; [|split; [split; assumption|split; assumption]].
  exists addr, p. split; [exact H6|]. split; [exact H7|]. split; [exact H8|]. split; [exact Eg|].
  intros rid id Hp. assert (X : os_done (rp_os (sy_s y)) (rid, id) = false). { destruct (os_done (rp_os (sy_s y)) (rid, id)) eqn:X; [|reflexivity]. exfalso. assert (Z : existsb (os_done (rp_os (sy_s y))) (pr_pending p) = true) by (apply existsb_exists; eauto). congruence. }
  unfold os_done in X. cbn [fst] in X. destruct (mget rid (rp_os (sy_s y))) as [[| |]|]; try discriminate. reflexivity.
Qed.
End C.
