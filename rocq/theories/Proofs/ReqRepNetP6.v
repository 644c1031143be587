(** The joint model of a request and a reply socket: end-to-end theorems. *)
From Coq Require Import ZArith Permutation Sorting.Sorted.
From Verif Require Import Model.Base Model.Map Model.Framed Model.WireReqRep Model.WireAuth Model.Compression Model.Backoff Model.Handshake Model.ReqDriver Model.RepDriver Model.Net Model.ReqRepNet
  Spec.Wire Spec.Stream Spec.AuthSpec Spec.CompressSpec Spec.ReqSpec Spec.RepSpec Spec.NetSpec
  Proofs.BaseP Proofs.MapP Proofs.FramedP2 Proofs.ReqRepP Proofs.AuthP Proofs.NetP
  Proofs.ReqDriverP Proofs.RepDriverP Proofs.RepDriverP2 Proofs.RepDriverP5 Proofs.RepNetP Proofs.ReqRepNetP Proofs.ReqRepNetP2 Proofs.ReqRepNetP3 Proofs.ReqRepNetP4 Proofs.ReqRepNetP5.
From Verif Require Proofs.T_Req Proofs.T_Rep Proofs.T_Compress.
Local Open Scope N_scope.

Lemma nth_ext {A} : forall l l' : list A, (forall n, nth_error l n = nth_error l' n) -> l = l'.
Proof.
  induction l as [|x l IH]; intros [|y l'] H; [reflexivity|specialize (H 0%nat); discriminate..|]. pose proof (H 0%nat) as H0. cbn in H0. inversion H0; subst. f_equal. apply IH. intros n. apply (H (S n)).
Qed.
Section Y.
Variables (o : ropts) (token : option bytes) (cco : option compressor)
          (max : option N) (min : N) (auth : option (bytes -> bool)) (sco : option compressor) (D : decompressors).
Hypothesis TOK : forall t, token = Some t -> blen t < 2 ^ 32.
Notation YI := (YI o token cco max min auth sco D).
Notation run := (y_run o token cco max min auth sco D).
Notation step := (y_step o token cco max min auth sco D).

Lemma serve_cevs ev y : sy_cevs (y_serve max min auth sco D ev y) = sy_cevs y.
Proof using. clear TOK. unfold y_serve. destruct (rp_act max min auth sco D (sy_s y) ev); reflexivity. Qed.
Lemma step_asked y ev : issued (sy_cevs (step y ev)) = issued (sy_cevs y) ++ asked [ev].
Proof using.
  clear TOK. destruct ev as [c p| |ok|e f tio nio|from|k r|k i b|a e i| |rid x|rid|]; cbn [y_step asked flat_map app]; rewrite ?app_nil_r; rewrite ?serve_cevs; try reflexivity.
  - unfold y_call. destruct (rd_step o cco D (sy_c y) _); cbn [sy_cevs]. rewrite issued_app. reflexivity.
  - unfold y_call. destruct (rd_step o cco D (sy_c y) _); cbn [sy_cevs]. rewrite issued_app. cbn. apply app_nil_r.
  - unfold y_connected. destruct (_ && _); [destruct (sy_task y)|]; reflexivity.
  - unfold y_client. destruct (rd_done (sy_c y)); [reflexivity|]. destruct (y_task token f tio y) as [[tk l1]|]; [|reflexivity].
    destruct (match rd_conn _ with RActive => _ | RInactive _ => _ end) as [[nx l2]|]; [|reflexivity].
    destruct (rd_step o cco D (sy_c y) _); cbn [sy_cevs]. rewrite issued_app. cbn. apply app_nil_r.
  - unfold y_accept. destruct from as [l|]; [|rewrite serve_cevs; reflexivity]. destruct (smem l (sy_backlog y)); [|reflexivity]. cbn [sy_cevs]. rewrite serve_cevs. reflexivity.
  - unfold y_auth. destruct (nth_error _ _) as [[cid addr]|]; [|reflexivity]. destruct auth as [a|] eqn:Au; [|reflexivity]. destruct (link_of cid y) as [[l lk]|]; [|rewrite <- Au, serve_cevs; reflexivity].
    destruct (pipe_offers i _); [|reflexivity]. destruct (auth_server a b i) as [[[id| | |] w] rest]; rewrite <- Au, serve_cevs; reflexivity.
  - unfold y_peer. destruct (mget a _) as [p|]; [|reflexivity]. destruct (link_of _ y) as [[l lk]|]; [|rewrite serve_cevs; reflexivity].
    destruct (_ && _); [|rewrite serve_cevs; reflexivity]. destruct (pipe_offers i _); [|reflexivity]. destruct (rr_poll i (lk_s lk)). rewrite serve_cevs. reflexivity.
Qed.
Lemma run_asked evs : issued (sy_cevs (run evs)) = asked evs.
Proof using.
  clear TOK. induction evs as [|ev evs IH] using rev_ind; [reflexivity|]. unfold y_run in *. rewrite fold_left_app. cbn [fold_left]. rewrite step_asked, IH. unfold asked. rewrite flat_map_app. reflexivity.
Qed.

(** ** The client's frames *)
Definition acc_of (y : sys) := accepted (sy_clog y).
Lemma acc_ids y : YI y -> blen (issued (sy_cevs y)) < 2 ^ 32 ->
  map rr_id (map snd (acc_of y)) = map N.of_nat (seq 0 (length (acc_of y))) /\
  (forall k c m, nth_error (acc_of y) k = Some (c, m) ->
     exists p, nth_error (issued (sy_cevs y)) k = Some (c, p) /\ m = req_into_wire (N.of_nat k) (req_outgoing (ro_min_compress o) cco p) /\ N.of_nat k < 2 ^ 32).
Proof using.
  clear TOK. intros ((C1 & _) & _) Lt. destruct (T_Req.C14_requests_sent_in_order_pf o cco D _ _ _ C1) as ((acc & rest & E & _ & M & F) & _). unfold acc_of.
  assert (Ln : length (accepted (sy_clog y)) = length acc) by (rewrite <- (map_length fst (accepted _)), M, map_length; reflexivity).
  assert (Le : N.of_nat (length (accepted (sy_clog y))) < 2 ^ 32) by (rewrite Ln; unfold blen in Lt; rewrite E, app_length in Lt; lia).
  assert (P : forall k c m, nth_error (accepted (sy_clog y)) k = Some (c, m) ->
     exists p, nth_error (issued (sy_cevs y)) k = Some (c, p) /\ m = req_into_wire (N.of_nat k) (req_outgoing (ro_min_compress o) cco p) /\ N.of_nat k < 2 ^ 32).
  { intros k c m H. assert (Hk : (k < length (accepted (sy_clog y)))%nat) by (apply nth_error_Some; congruence).
    destruct (F k m) as (c' & p & Hp & Hm); [rewrite nth_error_map, H; reflexivity|]. rewrite N.mod_small in Hm by lia.
    assert (c' = c). { pose proof (f_equal (fun l => nth_error l k) M) as X. cbn in X. rewrite !nth_error_map, H, Hp in X. cbn in X. congruence. } subst c'.
    exists p. split; [rewrite E, nth_error_app1 by lia; exact Hp|]. split; [exact Hm|lia]. }
  split; [|exact P]. apply nth_ext. intros k. destruct (nth_error (accepted (sy_clog y)) k) as [[c m]|] eqn:H.
  - rewrite !nth_error_map, H. cbn. destruct (P _ _ _ H) as (p & _ & -> & _). assert (Hk : (k < length (accepted (sy_clog y)))%nat) by (apply nth_error_Some; congruence).
    rewrite (nth_error_nth' (seq 0 _) 0%nat) by (rewrite seq_length; exact Hk). rewrite seq_nth by exact Hk. reflexivity.
  - assert (Hk : (length (accepted (sy_clog y)) <= k)%nat) by (apply nth_error_None; exact H). rewrite !nth_error_map, H. cbn. symmetry. rewrite (proj2 (nth_error_None (seq 0 _) k)) by (rewrite seq_length; exact Hk). reflexivity.
Qed.
Lemma acc_unique y c m c' m' : YI y -> blen (issued (sy_cevs y)) < 2 ^ 32 -> In (c, m) (acc_of y) -> In (c', m') (acc_of y) -> rr_id m = rr_id m' -> (c, m) = (c', m').
Proof using.
  clear TOK. intros Y Lt H H' E. destruct (acc_ids y Y Lt) as [_ P]. apply In_nth_error in H, H'. destruct H as (k & H), H' as (k' & H').
  destruct (P _ _ _ H) as (p & _ & E1 & L1), (P _ _ _ H') as (p' & _ & E2 & L2). assert (k = k'); [|congruence]. subst. cbn in E. lia.
Qed.
Lemma taken_acc y m : YI y -> In m (taken (sy_clog y)) -> In m (map snd (acc_of y)).
Proof using.
  clear TOK. intros ((C1 & _) & _) H. destruct (T_Req.C14_requests_sent_in_order_pf o cco D _ _ _ C1) as (_ & E). unfold acc_of. rewrite <- E. apply in_or_app; left. apply taken_handed, H.
Qed.
Lemma taken_sorted y : YI y -> blen (issued (sy_cevs y)) < 2 ^ 32 -> StronglySorted N.lt (map rr_id (taken (sy_clog y))).
Proof using.
  clear TOK. intros Y Lt. destruct (acc_ids y Y Lt) as [E _]. destruct Y as ((C1 & _) & _). destruct (T_Req.C14_requests_sent_in_order_pf o cco D _ _ _ C1) as (_ & E').
  apply ss_taken. unfold acc_of in E. rewrite <- E', map_app in E. pose proof (ss_seq (length (accepted (sy_clog y))) 0) as S. rewrite <- E in S. apply ss_app in S. apply S.
Qed.

(** ** Links *)
Lemma sents_in l k ls m : mget l ls = Some k -> In m (en_sent (lk_c k)) -> In m (sents ls).
Proof using. clear TOK. intros G H. unfold sents. apply in_flat_map. exists (l, k). split; [apply mget_in; exact G|exact H]. Qed.
Lemma sent_wf y l k : YI y -> blen (issued (sy_cevs y)) < 2 ^ 32 -> frames_fit y -> mget l (sy_links y) = Some k -> Forall rr_wf (en_sent (lk_c k)).
Proof using.
  clear TOK. intros Y Lt [F1 _] G. apply Forall_forall. intros m Hm. assert (T : In m (taken (sy_clog y))).
  { destruct Y as ((_ & _ & _ & _ & _ & _ & C7 & _) & _). rewrite <- C7. eapply sents_in; eauto. }
  pose proof (taken_acc _ _ Y T) as A. apply in_map_iff in A. destruct A as ([c m'] & <- & A). cbn [snd] in *. apply In_nth_error in A. destruct A as (n & A). destruct (acc_ids y Y Lt) as [_ P].
  destruct (P _ _ _ A) as (p & _ & E & Ln). specialize (F1 _ T). rewrite E in *. apply rr_new_wf; [exact Ln|exact F1].
Qed.
Lemma requests_inc cid L : map snd (requests_on cid L) = inc_on cid L.
Proof using. clear TOK. induction L as [|x L IH]; [reflexivity|]. unfold requests_on, inc_on in *. cbn [flat_map]. rewrite map_app, IH. f_equal. destruct x; try reflexivity. destruct (eq_dec cid0 cid); reflexivity. Qed.
Lemma received_prefix y cid l : YI y -> blen (issued (sy_cevs y)) < 2 ^ 32 -> frames_fit y -> client_connection y cid l ->
  exists k, mget l (sy_links y) = Some k /\ en_items (lk_s k) = inc_on cid (sy_slog y) /\ prefix_of (inc_on cid (sy_slog y)) (en_sent (lk_c k)).
Proof using.
  clear TOK. intros Y Lt F Hc. pose proof Y as (_ & L & (S1 & S2 & S3 & S4 & S5 & S6 & S7)). destruct (S3 _ _ Hc) as [_ (k & G)]. exists k. split; [exact G|].
  destruct (S6 _ _ _ Hc G) as (_ & B2 & _). split; [exact B2|]. rewrite <- B2. apply (items_s token auth); [eapply L; exact G|eapply sent_wf; eauto].
Qed.
(** What arrives at the client was sent by the server. *)
Lemma response_origin y m : YI y -> blen (issued (sy_cevs y)) < 2 ^ 32 -> frames_fit y -> response_seen (sy_cevs y) m ->
  exists cid l, client_connection y cid l /\ In (RHanded cid m true) (sy_slog y).
Proof using.
  clear TOK. intros Y Lt F R. pose proof Y as ((_ & _ & _ & _ & _ & _ & _ & C8 & _) & L & (S1 & S2 & S3 & S4 & S5 & S6 & S7)).
  destruct (C8 _ R) as (l & k & G & Hm). assert (W : Forall rr_wf (en_sent (lk_s k)) /\ forall m, In m (en_sent (lk_s k)) -> exists cid, mget cid (sy_cids y) = Some l /\ In (RHanded cid m true) (sy_slog y)).
  { destruct (mapped_dec (sy_cids y) l) as [(cid & Hc)|Hn].
    - destruct (S6 _ _ _ Hc G) as (B1 & B2 & _). split; [|intros m0 H0; exists cid; split; [exact Hc|]; apply in_tak; rewrite <- B1; exact H0].
      apply Forall_forall. intros m0 H0. rewrite B1 in H0. apply in_tak in H0. destruct (run_inv2 max min auth sco D _ _ _ S1) as (_ & _ & _ & (F1 & _ & _ & _ & F5 & _) & _).
      assert (Hh : In m0 (handed_on cid (sy_slog y))) by (unfold handed_on; apply in_flat_map; eexists; split; [exact H0|]; cbn; destruct (eq_dec cid cid); [left; reflexivity|congruence]).
      destruct (F5 cid) as [rest E]. assert (Q : In m0 (map snd (queued_on cid (sy_slog y)))) by (rewrite E; apply in_or_app; left; exact Hh).
      apply in_map_iff in Q. destruct Q as ((r & m') & Em & Q). cbn in Em. subst m'. unfold queued_on in Q. apply in_flat_map in Q. destruct Q as (x & Hx & Q). destruct x; try contradiction. destruct (eq_dec cid0 cid); [|contradiction]. subst. destruct Q as [Q|[]]. inversion Q; subst.
      apply F1 in Hx. destruct Hx as (a & req & x & Hi & _ & Ho).
      assert (Wr : rr_wf req). { pose proof (L _ _ G) as (Kd & _). destruct Kd as (_ & _ & _ & Kw). rewrite Forall_forall in Kw. apply Kw. rewrite B2. apply in_inc. eauto. }
      assert (Sz : blen (rr_payload m0) < 2 ^ 32). { destruct F as [_ F]. apply F. unfold taken_frames. apply in_flat_map. eexists. split; [exact H0|left; reflexivity]. }
      unfold rep_outgoing in Ho. destruct sco as [cm|]; [destruct (cmp_fun cm x) as [q|]; [|discriminate]|]; inversion Ho; subst; apply rr_new_wf; try exact Sz; apply Wr.
    - pose proof (fresh_fields _ (S5 _ _ G Hn)) as (_ & _ & _ & _ & -> & _). split; [constructor|intros m0 []]. }
  destruct W as [W1 W2]. destruct (items_c token auth k (L _ _ G) W1) as [rest E]. destruct (W2 m) as (cid & Hc & Hh); [rewrite E; apply in_or_app; left; exact Hm|]. exists cid, l. auto.
Qed.

(** ** The end-to-end theorem *)
Lemma end_to_end evs c x : let y := run evs in
  blen (asked evs) < 2 ^ 32 -> frames_fit y ->
  (forall cm, cco = Some cm -> inverse_of D cm) -> (forall cm, sco = Some cm -> inverse_of D cm) ->
  In (Resolve c (OOk x)) (sy_clog y) ->
  exists p addr rid, In (c, p) (asked evs) /\ In (RReceived (mkReq addr rid p)) (sy_slog y) /\ In (RResponded rid x true) (sy_slog y).
Proof using TOK.
  intros y Lt F Ic Is H. assert (Y : YI y) by (apply y_inv; exact TOK). rewrite <- run_asked in Lt |- *. fold y in Lt |- *.
  apply in_split in H. destruct H as (before & after & E).
  pose proof Y as ((C1 & _) & _ & (S1 & _)).
  destruct (T_Req.C10_response_matches_request_pf o cco D _ _ _ c x before after C1 E) as (m & t & req & l1 & l2 & Rs & Dx & Eb & Id & _).
  assert (A : In (c, req) (acc_of y)). { unfold acc_of, accepted. apply in_flat_map. exists (Accept t c req). split; [rewrite E, Eb; apply in_or_app; left; apply in_or_app; right; left; reflexivity|left; reflexivity]. }
  destruct (response_origin y m Y Lt F Rs) as (cid & l & Hc & Hh).
  assert (Hh' : In m (handed_on cid (sy_slog y))) by (unfold handed_on; apply in_flat_map; eexists; split; [exact Hh|]; cbn; destruct (eq_dec cid cid); [left; reflexivity|congruence]).
  destruct (T_Rep.C22_frames_answer_requests_pf max min auth sco D _ _ _ S1) as (Fr & Un & _). destruct (Fr cid) as (rids & _ & F2).
  assert (An : exists rid, answers sco D (sy_slog y) cid rid m).
  { clear - F2 Hh'. induction F2 as [|r m0 rs ms Ha F2 IH]; [contradiction|]. destruct Hh' as [->|Hh']; [eauto|apply IH, Hh']. }
  destruct An as (rid & addr & req' & x' & Hi & Hr & Id' & Dx'). specialize (Dx' Is). rewrite Dx in Dx'. inversion Dx'; subst x'. clear Dx'.
  (* the request the server saw is this call's *)
  destruct (received_prefix y cid l Y Lt F Hc) as (k & G & _ & [rest Pf]).
  assert (T : In req' (taken (sy_clog y))).
  { pose proof Y as ((_ & _ & _ & _ & _ & _ & C7 & _) & _). rewrite <- C7. eapply sents_in; [exact G|]. rewrite Pf. apply in_or_app; left. apply in_inc. eauto. }
  pose proof (taken_acc _ _ Y T) as A'. apply in_map_iff in A'. destruct A' as ([c' m'] & Em & A'). cbn in Em. subst m'.
  assert (Q : (c, req) = (c', req')) by (eapply acc_unique; eauto; congruence). inversion Q; subst c' req'. clear Q A'.
  apply In_nth_error in A. destruct A as (n & A). destruct (acc_ids y Y Lt) as [_ P]. destruct (P _ _ _ A) as (p & Hp & Er & Ln).
  (* the application saw it *)
  destruct (run_gots max min auth sco D _ _ _ S1) as (_ & _ & _ & G4). destruct (G4 _ _ _ Hr) as (q & Hq & Eq).
  destruct (received_incoming max min auth sco D _ _ _ q S1 Hq) as (c2 & m2 & Hi2 & Dm). rewrite Eq in Hi2.
  destruct (Un _ _ _ _ _ _ _ Hi Hi2) as (_ & Ea & Em). subst m2.
  assert (Dp : try_decompress D (rr_ctype req) (rr_payload req) = Some p).
  { rewrite Er. clear - Ic. unfold req_into_wire, req_outgoing, rr_ctype, rr_new; cbn [rr_hdr rrh_ctype rr_payload].
    destruct (ro_min_compress o <? blen p); [|reflexivity]. destruct cco as [cm|]; [|reflexivity].
    unfold om_compress. cbn [om_payload om_new]. destruct (cmp_fun cm p) as [q|] eqn:E; [|reflexivity]. cbn. apply T_Compress.decompress_inverse; auto. }
  rewrite Dp in Dm. inversion Dm as [E2]. exists (q_msg q), (q_source q), rid. split; [rewrite <- E2; eapply nth_error_In; exact Hp|]. split; [|exact Hr]. rewrite <- Eq. destruct q; exact Hq.
Qed.

(** ** Requests arrive at most once and in order *)
Lemma sents_split ls l1 l2 k1 k2 : numbered ls -> l1 < l2 -> mget l1 ls = Some k1 -> mget l2 ls = Some k2 ->
  exists a b c, sents ls = a ++ en_sent (lk_c k1) ++ b ++ en_sent (lk_c k2) ++ c.
Proof using.
  clear TOK. unfold numbered. intros Nm Lt G1 G2. apply mget_in in G1, G2.
  apply In_nth_error in G1, G2. destruct G1 as (i & G1), G2 as (j & G2).
  assert (Ix : forall n l k, nth_error ls n = Some (l, k) -> l = N.of_nat n).
  { intros n l k H. pose proof (f_equal (fun x => nth_error x n) Nm) as X. cbn in X. unfold mkeys in X. rewrite !nth_error_map, H in X. cbn in X.
    assert (Hn : (n < length ls)%nat) by (apply nth_error_Some; congruence). rewrite (nth_error_nth' (seq 0 _) 0%nat) in X by (rewrite seq_length; exact Hn). rewrite seq_nth in X by exact Hn. cbn in X. congruence. }
  pose proof (Ix _ _ _ G1). pose proof (Ix _ _ _ G2). assert (Hij : (i < j)%nat) by lia.
  apply nth_error_split in G1. destruct G1 as (pre & post & E & Lp). subst ls. rewrite nth_error_app2 in G2 by lia. replace (j - length pre)%nat with (S (j - S i))%nat in G2 by lia. cbn in G2.
  apply nth_error_split in G2. destruct G2 as (mid & post2 & -> & _). exists (sents pre), (sents mid), (sents post2). unfold sents. rewrite flat_map_app. cbn. rewrite flat_map_app. reflexivity.
Qed.
Lemma sents_one ls l k : mget l ls = Some k -> exists a c, sents ls = a ++ en_sent (lk_c k) ++ c.
Proof using. clear TOK. intros G. apply mget_in in G. apply in_split in G. destruct G as (a & b & ->). exists (sents a), (sents b). unfold sents. rewrite flat_map_app. reflexivity. Qed.

Lemma in_order evs : let y := run evs in blen (asked evs) < 2 ^ 32 -> frames_fit y ->
  (forall cid l, client_connection y cid l -> StronglySorted N.lt (map rr_id (map snd (requests_on cid (sy_slog y))))) /\
  (forall cid1 l1 cid2 l2 m1 m2, client_connection y cid1 l1 -> client_connection y cid2 l2 -> l1 < l2 ->
     In m1 (map snd (requests_on cid1 (sy_slog y))) -> In m2 (map snd (requests_on cid2 (sy_slog y))) -> rr_id m1 < rr_id m2) /\
  (forall cid1 cid2 l, client_connection y cid1 l -> client_connection y cid2 l -> cid1 = cid2).
Proof using TOK.
  intros y Lt F. assert (Y : YI y) by (apply y_inv; exact TOK). rewrite <- run_asked in Lt. fold y in Lt.
  pose proof (taken_sorted y Y Lt) as Ss. pose proof Y as ((_ & C2 & _ & _ & _ & _ & C7 & _) & _ & (_ & S2 & _)). rewrite <- C7 in Ss.
  split; [|split; [|exact S2]].
  - intros cid l Hc. destruct (received_prefix y cid l Y Lt F Hc) as (k & G & _ & [rest Pf]). rewrite requests_inc. destruct (sents_one _ _ _ G) as (a & c & E). rewrite E, Pf, !map_app in Ss.
    apply ss_app in Ss. destruct Ss as (_ & Ss & _). apply ss_app in Ss. destruct Ss as (Ss & _). apply ss_app in Ss. apply Ss.
  - intros cid1 l1 cid2 l2 m1 m2 H1 H2 Hl I1 I2. rewrite requests_inc in I1, I2. destruct (received_prefix y cid1 l1 Y Lt F H1) as (k1 & G1 & _ & [r1 P1]), (received_prefix y cid2 l2 Y Lt F H2) as (k2 & G2 & _ & [r2 P2]).
    destruct (sents_split _ _ _ _ _ C2 Hl G1 G2) as (a & b & c & E). rewrite E, map_app in Ss. apply ss_app in Ss. destruct Ss as (_ & Ss & _). rewrite map_app in Ss. apply ss_app in Ss. destruct Ss as (_ & _ & Ss).
    apply Ss; [rewrite P1, map_app; apply in_or_app; left; apply in_map, I1|]. rewrite !map_app. apply in_or_app; right. apply in_or_app; left. rewrite P2, map_app. apply in_or_app; left. apply in_map, I2.
Qed.

Lemma genuine evs : let y := run evs in blen (asked evs) < 2 ^ 32 -> frames_fit y -> (forall cm, cco = Some cm -> inverse_of D cm) ->
  forall cid l rid m, client_connection y cid l -> In (rid, m) (requests_on cid (sy_slog y)) ->
  exists c p, nth_error (asked evs) (N.to_nat (rr_id m)) = Some (c, p) /\ try_decompress D (rr_ctype m) (rr_payload m) = Some p.
Proof using TOK.
  intros y Lt F Ic cid l rid m Hc Hm. assert (Y : YI y) by (apply y_inv; exact TOK). rewrite <- run_asked in Lt |- *. fold y in Lt |- *.
  apply (in_map snd) in Hm. rewrite requests_inc in Hm. cbn [snd] in Hm.
  destruct (received_prefix y cid l Y Lt F Hc) as (k & G & _ & [rest Pf]).
  assert (T : In m (taken (sy_clog y))).
  { pose proof Y as ((_ & _ & _ & _ & _ & _ & C7 & _) & _). rewrite <- C7. eapply sents_in; [exact G|]. rewrite Pf. apply in_or_app; left. exact Hm. }
  pose proof (taken_acc _ _ Y T) as A'. apply in_map_iff in A'. destruct A' as ([c' m'] & Em & A'). cbn in Em. subst m'. apply In_nth_error in A'. destruct A' as (n & A). destruct (acc_ids y Y Lt) as [_ P]. destruct (P _ _ _ A) as (p & Hp & Er & Ln).
  exists c', p. split; [rewrite Er; cbn [req_into_wire rr_new rr_id rr_hdr rrh_id]; rewrite Nnat.Nat2N.id; exact Hp|].
  rewrite Er. clear - Ic. unfold req_into_wire, req_outgoing, rr_ctype, rr_new; cbn [rr_hdr rrh_ctype rr_payload].
  destruct (ro_min_compress o <? blen p); [|reflexivity]. destruct cco as [cm|]; [|reflexivity].
  unfold om_compress. cbn [om_payload om_new]. destruct (cmp_fun cm p) as [q|] eqn:E; [|reflexivity]. cbn. apply T_Compress.decompress_inverse; auto.
Qed.
End Y.
