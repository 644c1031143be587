(** The polls of the reply driver: they are runs, they strand nothing, they end. *)
From Coq Require Import ZArith ZifyBool ZifyNat ZifyN Permutation.
From Verif Require Import Model.Base Model.Map Model.WireReqRep Model.Compression Model.Stats Model.Framed Model.WireAuth
  Model.Handshake Model.ReqDriver Model.RepDriver Spec.CompressSpec Spec.RepSpec Proofs.BaseP Proofs.MapP Proofs.RepDriverP Proofs.RepDriverP2 Proofs.RepDriverP3.
Local Open Scope N_scope.

Section P.
Variables (max : option N) (min : N) (auth : option (bytes -> bool)) (co : option compressor) (D : decompressors).
Notation run := (rp_run max min auth co D).
Notation peer_poll := (rp_peer_poll min co D).
Notation poll_peers := (rp_poll_peers min co D).
Notation iter := (rp_iter max min auth co D).
Notation poll := (rp_poll max min auth co D).

Lemma run_one s ev s' o : rp_act max min auth co D s ev = (s', o) -> run s [ev] = (s', o).
Proof using. intros H. cbn [rp_run]. rewrite H, app_nil_r. reflexivity. Qed.
Lemma run_trans s e1 s1 o1 e2 s2 o2 : run s e1 = (s1, o1) -> run s1 e2 = (s2, o2) -> run s (e1 ++ e2) = (s2, o1 ++ o2).
Proof using. intros H1 H2. rewrite run_app, H1, H2. reflexivity. Qed.

Lemma peer_poll_run a : forall es s s' o r, peer_poll a es s = (s', o, r) -> exists evs, run s evs = (s', o).
Proof using.
  induction es as [|e es IH]; intros s s' o r; cbn [rp_peer_poll].
  - intros H; inversion H; subst. exists []. reflexivity.
  - destruct (rp_peer min co D a e s) as [[s1 o1] st] eqn:E.
    assert (R : run s [VPeer a e] = (s1, o1)) by (apply run_one; cbn [rp_act]; rewrite E; reflexivity).
    destruct st; try (intros H; inversion H; subst; eauto).
    destruct (peer_poll a es s1) as [[s2 o2] r2] eqn:E2. inversion H; subst. destruct (IH _ _ _ _ E2) as [evs R2].
    exists ([VPeer a e] ++ evs). eapply run_trans; eauto.
Qed.
Lemma poll_peers_run order es : forall s s' o r, poll_peers order es s = (s', o, r) -> exists evs, run s evs = (s', o).
Proof using.
  induction order as [|a order IH]; intros s s' o r; cbn [rp_poll_peers].
  - intros H; inversion H; subst. exists []. reflexivity.
  - destruct (peer_poll a (es a) s) as [[s1 o1] r1] eqn:E. destruct (peer_poll_run _ _ _ _ _ _ E) as [evs1 R1].
    destruct r1 as [[|]|]; try (intros H; inversion H; subst; eauto).
    destruct (poll_peers order es s1) as [[s2 o2] r2] eqn:E2. inversion H; subst. destruct (IH _ _ _ _ E2) as [evs2 R2].
    exists (evs1 ++ evs2). eapply run_trans; eauto.
Qed.
Lemma iter_run d s s' o r : iter d s = (s', o, r) -> exists evs, run s evs = (s', o).
Proof using.
  unfold rp_iter. destruct (poll_peers (d_all d s) (d_peers d) s) as [[s1 o1] r1] eqn:E. destruct (poll_peers_run _ _ _ _ _ _ E) as [evs1 R1].
  destruct r1 as [[|]|]; try (intros H; inversion H; subst; eauto). revert H.
  assert (X2 : exists evs2, run s1 evs2 = (fst (match d_auth d with Some (k, i, b) => rp_auth auth k i b s1 | None => (s1, [], false) end))).
  { destruct (d_auth d) as [[[k i] b]|]; [|exists []; reflexivity]. exists [VAuth k i b]. destruct (rp_auth auth k i b s1) as [[s2 o2] c2] eqn:A.
    apply run_one. cbn [rp_act]. rewrite A. reflexivity. }
  destruct X2 as [evs2 R2]. destruct (match d_auth d with Some (k, i, b) => rp_auth auth k i b s1 | None => (s1, [], false) end) as [[s2 o2] c2]. cbn [fst] in R2.
  destruct c2; [intros H; inversion H; subst; exists (evs1 ++ evs2); eapply run_trans; eauto|].
  assert (X3 : exists evs3, run s2 evs3 = (fst (match d_conn d with Some (k, r) => rp_conn auth k r s2 | None => (s2, [], false) end))).
  { destruct (d_conn d) as [[k r0]|]; [|exists []; reflexivity]. exists [VConn k r0]. destruct (rp_conn auth k r0 s2) as [[s3 o3] c3] eqn:A.
    apply run_one. cbn [rp_act]. rewrite A. reflexivity. }
  destruct X3 as [evs3 R3]. destruct (match d_conn d with Some (k, r) => rp_conn auth k r s2 | None => (s2, [], false) end) as [[s3 o3] c3]. cbn [fst] in R3.
  assert (R123 : run s (evs1 ++ evs2 ++ evs3) = (s3, o1 ++ o2 ++ o3)) by (eapply run_trans; [exact R1|]; eapply run_trans; eauto).
  destruct c3; [intros H; inversion H; subst; eauto|]. destruct (d_accept d).
  - destruct (rp_accept max s3) as [s4 o4] eqn:A. intros H; inversion H; subst. exists ((evs1 ++ evs2 ++ evs3) ++ [VAccept]).
    replace (o1 ++ o2 ++ o3 ++ o4) with ((o1 ++ o2 ++ o3) ++ o4) by (rewrite !app_assoc; reflexivity). eapply run_trans; [exact R123|]. apply run_one. exact A.
  - intros H; inversion H; subst; eauto.
Qed.
Lemma poll_run : forall ds s s' o b, poll ds s = (s', o, b) -> exists evs, run s evs = (s', o).
Proof using.
  induction ds as [|d ds IH]; intros s s' o b; cbn [rp_poll]; [intros H; inversion H; subst; exists []; reflexivity|].
  destruct (iter d s) as [[s1 o1] r1] eqn:E. destruct (iter_run _ _ _ _ _ E) as [evs1 R1]. destruct r1 as [[|]|]; try (intros H; inversion H; subst; eauto).
  destruct (poll ds s1) as [[s2 o2] r2] eqn:E2. inversion H; subst. destruct (IH _ _ _ _ E2) as [evs2 R2]. exists (evs1 ++ evs2). eapply run_trans; eauto.
Qed.

(** ** Nothing stranded *)
(** How the peer [a] looks after an iteration that yields no item. *)
Definition shrunk (a : N) (s s' : rp) : Prop :=
  forall p', mget a (rp_peers s') = Some p' -> exists p, mget a (rp_peers s) = Some p /\ pr_cid p = pr_cid p' /\ pr_open p' = pr_open p /\ incl (pr_pending p') (pr_pending p).
Lemma shrunk_refl a s : shrunk a s s.
Proof using. intros p' H. exists p'. repeat split; auto. apply incl_refl. Qed.
Lemma shrunk_trans a s1 s2 s3 : shrunk a s1 s2 -> shrunk a s2 s3 -> shrunk a s1 s3.
Proof using.
  intros H1 H2 p' G. destruct (H2 _ G) as (p2 & G2 & C2 & O2 & I2). destruct (H1 _ G2) as (p1 & G1 & C1 & O1 & I1). exists p1.
  split; [exact G1|]. split; [congruence|]. split; [congruence|]. eapply incl_tran; eauto.
Qed.
Definition clean (a : N) (s : rp) : Prop :=
  forall p r id, mget a (rp_peers s) = Some p -> In (r, id) (pr_pending p) -> mget r (rp_os s) <> None /\ mget r (rp_os s) <> Some OsDropped.
Definition idle (a : N) (s : rp) : Prop :=
  forall p r id, mget a (rp_peers s) = Some p -> In (r, id) (pr_pending p) -> mget r (rp_os s) = Some OsWait.

Lemma pick_none pref os l : pref <> None -> pick pref os l = None -> forall e, In e l -> os_done os e = false.
Proof using.
  unfold pick. destruct pref as [k|]; [intros _|congruence]. destruct (find _ _); [discriminate|]. intros H e He. destruct (os_done os e) eqn:O; [|reflexivity]. exfalso.
  assert (X : In e (filter (os_done os) l)) by (apply filter_In; auto). destruct (filter (os_done os) l); [destruct X|discriminate].
Qed.

Lemma unpend_incl r l : incl (unpend r l) l.
Proof using. intros x H. apply filter_In in H. apply H. Qed.

(** One iteration at peer [b] that yields no item. *)
Lemma peer_noitem b e s s' o st : rp_peer min co D b e s = (s', o, st) -> st <> PsItem ->
  rp_os s' = rp_os s /\ (forall a, shrunk a s s') /\
  (forall a, a <> b -> mget a (rp_peers s') = mget a (rp_peers s)) /\
  (idle b s -> idle b s') /\
  (p_pref e <> None -> st = PsPending -> clean b s -> idle b s') /\
  (p_ready e = true -> forall p', st = PsPending -> mget b (rp_peers s') = Some p' -> pr_egress p' = []).
Proof using.
  rewrite rp_peer_eq. destruct (mget b (rp_peers s)) as [p|] eqn:G.
  2:{ intros H; inversion H; subst. intros _. split; [reflexivity|]. split; [intros a; apply shrunk_refl|]. split; [reflexivity|]. split; [auto|]. split; [discriminate|]. discriminate. }
  destruct (pr_open p) eqn:Op.
  2:{ intros H; inversion H; subst. intros _. cbn [rp_with_peers rp_os rp_peers]. split; [reflexivity|]. split.
      { intros a p' X. cbn in X. rewrite mget_del in X. destruct (eq_dec a b); [discriminate|]. exists p'. repeat split; auto. apply incl_refl. }
      split; [intros a Ne; apply mget_del_ne; exact Ne|]. split; [intros _ p' r id X; cbn in X; rewrite mget_del_eq in X; discriminate|].
      split; [intros _ _ _ p' r id X; cbn in X; rewrite mget_del_eq in X; discriminate|]. intros _ p' _ X. rewrite mget_del_eq in X; discriminate. }
  assert (Core : forall p' tx failed, pr_cid p' = pr_cid p -> pr_open p' = true -> incl (pr_pending p') (pr_pending p) ->
     let s1 := with_stats (upd s b p') tx failed in rp_os s1 = rp_os s /\ (forall a, shrunk a s s1) /\ (forall a, a <> b -> mget a (rp_peers s1) = mget a (rp_peers s)) /\ (idle b s -> idle b s1)).
  { intros p' tx failed C O I s1. split; [reflexivity|]. cbn [s1 with_stats upd rp_with_peers rp_peers]. split; [|split].
    - intros a q X. cbn in X. rewrite mget_set in X. destruct (eq_dec a b) as [->|Ne]; [inversion X; subst; exists p; repeat split; auto; congruence|]. exists q. repeat split; auto. apply incl_refl.
    - intros a Ne. apply mget_set_ne; exact Ne.
    - intros Id q r id X Y. cbn in X. rewrite mget_set_eq in X. inversion X; subst. cbn. eapply Id; [exact G|]. apply I, Y. }
  unfold peer_iter.
  set (p1 := if pr_flush p && p_flush_ok e then mkPeer (pr_cid p) (pr_pending p) (pr_egress p) false (pr_open p) else p).
  assert (P1 : pr_cid p1 = pr_cid p /\ pr_pending p1 = pr_pending p /\ pr_egress p1 = pr_egress p /\ pr_open p1 = true) by (unfold p1; destruct (pr_flush p && p_flush_ok e); auto).
  destruct P1 as (C1 & E1 & G1 & O1). clearbody p1.
  destruct (if p_ready e then pr_egress p1 else []) as [|m q] eqn:Eg.
  - assert (Eg' : p_ready e = true -> pr_egress p1 = []) by (intros R; rewrite R in Eg; exact Eg).
    assert (Next : forall p2, pr_cid p2 = pr_cid p -> pr_open p2 = true -> incl (pr_pending p2) (pr_pending p) -> pr_egress p2 = pr_egress p1 ->
       (p_pref e <> None -> clean b s -> forall r id, In (r, id) (pr_pending p2) -> mget r (rp_os s) = Some OsWait) ->
       peer_handle D b s p (peer_next e (rp_next_rid s) p2 (rp_tx s) (rp_failed s)) = (s', o, st) -> st <> PsItem ->
       rp_os s' = rp_os s /\ (forall a, shrunk a s s') /\ (forall a, a <> b -> mget a (rp_peers s') = mget a (rp_peers s)) /\ (idle b s -> idle b s') /\
       (p_pref e <> None -> st = PsPending -> clean b s -> idle b s') /\ (p_ready e = true -> forall p', st = PsPending -> mget b (rp_peers s') = Some p' -> pr_egress p' = [])).
    { intros p2 C2 O2 I2 G2 W. unfold peer_next, peer_handle. destruct (p_next e) as [m| | |].
      - destruct (rp_on_request D _ b (pr_cid p) m). intros H; inversion H; subst. congruence.
      - intros H; inversion H; subst. congruence.
      - intros H; inversion H; subst. congruence.
      - intros H; inversion H; subst. intros _. destruct (Core p2 (rp_tx s) (rp_failed s) C2 O2 I2) as (K1 & K2 & K3 & K4).
        split; [exact K1|]. split; [exact K2|]. split; [exact K3|]. split; [exact K4|]. split.
        + intros Pn _ Cl q r id X Y. cbn in X. rewrite mget_set_eq in X. inversion X; subst. cbn. eapply W; eauto.
        + intros R q _ X. cbn in X. rewrite mget_set_eq in X. inversion X; subst. rewrite G2. apply Eg', R. }
    destruct (pick (p_pref e) (rp_os s) (pr_pending p1)) as [[r id]|] eqn:Pk.
    + pose proof Pk as Pk'. apply pick_in in Pk. destruct Pk as [Hin Hd]. unfold os_done in Hd. cbn [fst] in Hd. rewrite E1 in Hin.
      assert (Dropped : mget r (rp_os s) = None \/ mget r (rp_os s) = Some OsDropped ->
         peer_handle D b s p (peer_next e (rp_next_rid s) (mkPeer (pr_cid p1) (unpend r (pr_pending p1)) (pr_egress p1) (pr_flush p1) (pr_open p1)) (rp_tx s) (rp_failed s)) = (s', o, st) -> st <> PsItem ->
         rp_os s' = rp_os s /\ (forall a, shrunk a s s') /\ (forall a, a <> b -> mget a (rp_peers s') = mget a (rp_peers s)) /\ (idle b s -> idle b s') /\
         (p_pref e <> None -> st = PsPending -> clean b s -> idle b s') /\ (p_ready e = true -> forall p', st = PsPending -> mget b (rp_peers s') = Some p' -> pr_egress p' = [])).
      { intros X. apply Next; cbn [pr_cid pr_open pr_pending pr_egress]; auto.
        - rewrite E1. apply unpend_incl.
        - intros _ Cl. exfalso. destruct (Cl _ _ _ G Hin) as [Y1 Y2]. destruct X; contradiction. }
      destruct (mget r (rp_os s)) as [[|x|]|] eqn:Os; [discriminate| |apply Dropped; auto|apply Dropped; auto].
      destruct (rep_outgoing min co id x) as [m|]; intros H; inversion H; subst; intros _.
      * destruct (Core (mkPeer (pr_cid p1) (unpend r (pr_pending p1)) (pr_egress p1 ++ [m]) (pr_flush p1) (pr_open p1)) (rp_tx s) (rp_failed s) C1 O1) as (K1 & K2 & K3 & K4).
        { cbn [pr_pending]. rewrite E1. apply unpend_incl. }
        split; [exact K1|]. split; [exact K2|]. split; [exact K3|]. split; [exact K4|]. split; discriminate.
      * destruct (Core (mkPeer (pr_cid p1) (unpend r (pr_pending p1)) (pr_egress p1) (pr_flush p1) (pr_open p1)) (rp_tx s) (rp_failed s) C1 O1) as (K1 & K2 & K3 & K4).
        { cbn [pr_pending]. rewrite E1. apply unpend_incl. }
        split; [exact K1|]. split; [exact K2|]. split; [exact K3|]. split; [exact K4|]. split; discriminate.
    + apply Next; auto.
      * rewrite E1. apply incl_refl.
      * intros Pn Cl r id Y. pose proof (pick_none _ _ _ Pn Pk _ Y) as X. unfold os_done in X. cbn [fst] in X. rewrite E1 in Y. destruct (Cl _ _ _ G Y) as [Y1 Y2].
        destruct (mget r (rp_os s)) as [[|y|]|]; congruence.
  - destruct (p_send e); intros H; inversion H; subst; [intros _|congruence].
    destruct (Core (mkPeer (pr_cid p1) (pr_pending p1) q true (pr_open p1)) (rp_tx s + rr_size m) (rp_failed s) C1 O1) as (K1 & K2 & K3 & K4).
    { cbn [pr_pending]. rewrite E1. apply incl_refl. }
    split; [exact K1|]. split; [exact K2|]. split; [exact K3|]. split; [exact K4|]. split; discriminate.
Qed.

Lemma clean_shrunk a s s' : rp_os s' = rp_os s -> shrunk a s s' -> clean a s -> clean a s'.
Proof using. intros E S C p r id G H. destruct (S _ G) as (q & Gq & _ & _ & I). rewrite E. eapply C; [exact Gq|]. apply I, H. Qed.

Lemma peer_poll_noitem b : forall es s s' o, peer_poll b es s = (s', o, Some false) ->
  rp_os s' = rp_os s /\ (forall a, shrunk a s s') /\ (forall a, a <> b -> mget a (rp_peers s') = mget a (rp_peers s)) /\
  (idle b s -> idle b s') /\ ((forall e, In e es -> p_pref e <> None) -> clean b s -> idle b s') /\
  ((forall e, In e es -> p_ready e = true) -> forall p', mget b (rp_peers s') = Some p' -> pr_egress p' = []).
Proof using.
  induction es as [|e es IH]; intros s s' o; cbn [rp_peer_poll]; [discriminate|].
  destruct (rp_peer min co D b e s) as [[s1 o1] st] eqn:E. destruct st.
  - destruct (peer_poll b es s1) as [[s2 o2] r2] eqn:E2. intros H; inversion H; subst.
    apply peer_noitem in E; [|discriminate]. destruct E as (A1 & A2 & A3 & A4 & _). destruct (IH _ _ _ E2) as (B1 & B2 & B3 & B4 & B5 & B6).
    split; [congruence|]. split; [intros a; eapply shrunk_trans; eauto|]. split; [intros a Ne; rewrite B3, A3; auto|]. split; [auto|]. split.
    + intros Pn C. apply B5; [intros e' He'; apply Pn; right; exact He'|]. eapply clean_shrunk; eauto.
    + intros R. apply B6. intros e' He'. apply R. right; exact He'.
  - discriminate.
  - intros H; inversion H; subst. apply peer_noitem in E; [|discriminate]. destruct E as (A1 & A2 & A3 & A4 & A5 & A6).
    split; [exact A1|]. split; [exact A2|]. split; [exact A3|]. split; [exact A4|]. split; [intros Pn; apply A5; [apply Pn; left; reflexivity|reflexivity]|].
    intros R p' G. eapply A6; [apply R; left; reflexivity|reflexivity|exact G].
  - intros H; inversion H; subst. unfold rp_peer in E. destruct (mget b (rp_peers s)) as [p|] eqn:G.
    + exfalso. change (rp_peer min co D b e s = (s', o, PsAbsent)) in (type of E) || idtac. 
      destruct (pr_open p); [|inversion E]. destruct (peer_iter min co e (rp_os s) (rp_next_rid s) p (rp_tx s) (rp_failed s)) as [[[[p' tx] fl] oo] r]. destruct r; try (inversion E; fail).
      destruct (rp_on_request _ _ _ _ _); inversion E.
    + inversion E; subst. split; [reflexivity|]. split; [intros a; apply shrunk_refl|]. split; [reflexivity|]. split; [auto|].
      split; [intros _ _ p r id X; congruence|]. intros _ p' X. congruence.
Qed.

Lemma poll_peers_noitem es order : forall s s' o, poll_peers order es s = (s', o, Some false) ->
  rp_os s' = rp_os s /\ (forall a, shrunk a s s') /\ (forall a, idle a s -> idle a s') /\ (forall a, In a order -> (forall e, In e (es a) -> p_pref e <> None) -> clean a s -> idle a s') /\
  (forall a, (forall e, In e (es a) -> p_ready e = true) -> (In a order \/ (forall p, mget a (rp_peers s) = Some p -> pr_egress p = [])) -> forall p', mget a (rp_peers s') = Some p' -> pr_egress p' = []).
Proof using.
  induction order as [|b order IH]; intros s s' o; cbn [rp_poll_peers].
  - intros H; inversion H; subst. split; [reflexivity|]. split; [intros; apply shrunk_refl|]. split; [auto|]. split; [intros a []|]. intros a _ [[]|X]; exact X.
  - destruct (peer_poll b (es b) s) as [[s1 o1] r1] eqn:E. destruct r1 as [[|]|]; try discriminate.
    destruct (poll_peers order es s1) as [[s2 o2] r2] eqn:E2. intros H; inversion H; subst.
    destruct (peer_poll_noitem _ _ _ _ _ E) as (A1 & A2 & A3 & A4 & A5 & A6). destruct (IH _ _ _ E2) as (B1 & B2 & B3 & B4 & B5).
    split; [congruence|]. split; [intros a; eapply shrunk_trans; eauto|].
    assert (I1 : forall a, idle a s -> idle a s1).
    { intros a Id. destruct (N.eq_dec a b) as [->|Ne]; [apply A4, Id|]. intros p r id G Hi. rewrite A3 in G by exact Ne. rewrite A1. eapply Id; eauto. }
    split; [intros a Id; apply B3, I1, Id|]. split.
    + intros a [<-|Ha] Pn C; [apply B3, A5; [exact Pn|exact C]|]. apply B4; [exact Ha|exact Pn|]. eapply clean_shrunk; eauto.
    + intros a R Ha. apply B5; [exact R|]. destruct (N.eq_dec a b) as [->|Ne]; [right; apply A6; exact R|].
      destruct Ha as [[X|Ha]|Ha]; [congruence|left; exact Ha|right]. rewrite A3 by exact Ne. exact Ha.
Qed.

Lemma in_d_all d s a : mget a (rp_peers s) <> None -> In a (d_all d s).
Proof using.
  intros H. unfold d_all. apply in_or_app. destruct (smem a (d_order d)) eqn:E.
  - left. apply filter_In. split; [apply smem_true, E|]. unfold mem. destruct (mget a (rp_peers s)); congruence.
  - right. apply filter_In. split; [apply mget_keys, H|]. rewrite E. reflexivity.
Qed.

(** After the last iteration of a poll. *)
Lemma iter_idle d s s' o : iter d s = (s', o, Some false) ->
  (forall a, shrunk a s s') /\ rp_os s' = rp_os s /\ (forall a, (forall e, In e (d_peers d a) -> p_pref e <> None) -> clean a s -> idle a s') /\
  (forall a, (forall e, In e (d_peers d a) -> p_ready e = true) -> forall p', mget a (rp_peers s') = Some p' -> pr_egress p' = []).
Proof using.
  unfold rp_iter. destruct (poll_peers (d_all d s) (d_peers d) s) as [[s1 o1] r1] eqn:E. destruct r1 as [[|]|]; try discriminate.
  apply poll_peers_noitem in E. destruct E as (A1 & A2 & A3 & A4 & A5).
  assert (X2 : forall s2 o2, (match d_auth d with Some (k, i, b) => rp_auth auth k i b s1 | None => (s1, [], false) end) = (s2, o2, false) -> rp_peers s2 = rp_peers s1 /\ rp_os s2 = rp_os s1).
  { intros s2 o2. destruct (d_auth d) as [[[k i] b]|]; [|intros H; inversion H; auto]. unfold rp_auth. destruct (nth_error (rp_auths s1) k) as [[cid addr]|]; [|intros H; inversion H; auto].
    destruct auth as [au|]; [|intros H; inversion H; auto]. destruct (auth_server au b i) as [[[id| | |] w] rest]; try (intros H; inversion H; auto; fail).
    all: cbn [rp_insert]; intros H; inversion H. }
  destruct (match d_auth d with Some (k, i, b) => rp_auth auth k i b s1 | None => (s1, [], false) end) as [[s2 o2] c2]. destruct c2; [discriminate|].
  destruct (X2 _ _ eq_refl) as (E1 & E2).
  assert (X3 : forall s3 o3, (match d_conn d with Some (k, r) => rp_conn auth k r s2 | None => (s2, [], false) end) = (s3, o3, false) -> s3 = s2).
  { intros s3 o3. destruct (d_conn d) as [[k r]|]; [|intros H; inversion H; auto]. unfold rp_conn. destruct (nth_error (rp_conns s2) k) as [cid|]; [|intros H; inversion H; auto].
    destruct r as [[addr|]|]; [destruct auth|..]; cbn [rp_insert]; intros H; inversion H. }
  destruct (match d_conn d with Some (k, r) => rp_conn auth k r s2 | None => (s2, [], false) end) as [[s3 o3] c3]. destruct c3; [discriminate|].
  pose proof (X3 _ _ eq_refl) as ->. destruct (d_accept d); [destruct (rp_accept max s2); discriminate|]. intros H; inversion H; subst.
  unfold idle, shrunk. rewrite E1, E2. split; [exact A2|]. split; [exact A1|]. split.
  - intros a Pn C. destruct (mget a (rp_peers s)) as [p|] eqn:G.
    + apply A4; [apply in_d_all; congruence|exact Pn|exact C].
    + intros p' r id G' _. destruct (A2 a _ G') as (q & Gq & _). congruence.
  - intros a R p' G'. apply (A5 a R); [|exact G']. left. destruct (A2 a _ G') as (q & Gq & _). apply in_d_all. congruence.
Qed.

Lemma poll_last : forall ds s s' o, poll ds s = (s', o, true) -> exists ds1 d ds2 s1 o1 o2, ds = ds1 ++ d :: ds2 /\ poll ds1 s = (s1, o1, false) /\ iter d s1 = (s', o2, Some false) /\ o = o1 ++ o2.
Proof using.
  induction ds as [|d ds IH]; intros s s' o; cbn [rp_poll]; [discriminate|].
  destruct (iter d s) as [[s1 o1] r1] eqn:E. destruct r1 as [[|]|]; [| |discriminate].
  - destruct (poll ds s1) as [[s2 o2] r2] eqn:E2. intros H; inversion H; subst. destruct (IH _ _ _ E2) as (ds1 & d' & ds2 & sa & oa & ob & -> & P1 & P2 & ->).
    exists (d :: ds1), d', ds2, sa, (o1 ++ oa), ob. split; [reflexivity|]. split; [cbn [rp_poll]; rewrite E, P1; reflexivity|]. split; [exact P2|]. rewrite app_assoc. reflexivity.
  - intros H; inversion H; subst. exists [], d, ds, s, [], o. split; [reflexivity|]. split; [reflexivity|]. split; [exact E|reflexivity].
Qed.

(** ** Termination *)
Definition wk (p : peer) : nat := (length (pr_egress p) + 2 * length (pr_pending p))%nat.
Lemma work_get a s p : mget a (rp_peers s) = Some p -> work a s = wk p.
Proof using. intros H. unfold work. rewrite H. reflexivity. Qed.
Lemma unpend_len r id l : In (r, id) l -> (length (unpend r l) < length l)%nat.
Proof using.
  assert (Le : forall l', (length (unpend r l') <= length l')%nat) by (intros l'; unfold unpend; induction l' as [|x l' IH]; cbn [filter length]; [lia|destruct (negb _); cbn [length]; lia]).
  induction l as [|x l IH]; intros H; [destruct H|]. unfold unpend in *. cbn [filter]. destruct H as [-> |H].
  - cbn [fst]. rewrite N.eqb_refl. cbn [negb length]. specialize (Le l). lia.
  - specialize (IH H). destruct (negb _); cbn [length]; lia.
Qed.

Definition quiet_env (e : penv) : Prop := p_next e = NxPending \/ p_next e = NxEof.
Lemma served_oc s : served s = length (open_cids (rp_peers s)).
Proof using. unfold served, open_cids. induction (rp_peers s) as [|[a p] l IH]; [reflexivity|]. cbn [filter snd flat_map]. unfold oc at 1. destruct (pr_open p); cbn [length app]; rewrite IH; reflexivity. Qed.

(** One iteration with a quiet connection. *)
Lemma peer_quiet b e s s' o st : NoDup (mkeys (rp_peers s)) -> quiet_env e -> rp_peer min co D b e s = (s', o, st) ->
  NoDup (mkeys (rp_peers s')) /\ (forall a, work a s' <= work a s)%nat /\ rp_conns s' = rp_conns s /\ rp_auths s' = rp_auths s /\
  (served s' + (if match st with PsItem => true | _ => false end then 1 else 0) <= served s)%nat /\
  (st = PsLoop -> (work b s' < work b s)%nat).
Proof using.
  intros Nk Qe. rewrite rp_peer_eq. destruct (mget b (rp_peers s)) as [p|] eqn:G.
  2:{ intros H; inversion H; subst. split; [exact Nk|]. split; [auto|]. split; [reflexivity|]. split; [reflexivity|]. split; [lia|discriminate]. }
  destruct (pr_open p) eqn:Op.
  2:{ intros H; inversion H; subst. cbn [rp_with_peers rp_conns rp_auths rp_peers]. split; [apply nodup_del, Nk|]. split; [|split; [reflexivity|split; [reflexivity|split; [|discriminate]]]].
      - intros a. unfold work. cbn [rp_peers rp_with_peers]. rewrite mget_del. destruct (eq_dec a b); [lia|reflexivity].
      - rewrite !served_oc. cbn [rp_peers rp_with_peers]. rewrite (Permutation_length (oc_get b p _ Nk G)), app_length. lia. }
  assert (Core : forall p' tx failed, pr_open p' = true -> (wk p' <= wk p)%nat ->
     let s1 := with_stats (upd s b p') tx failed in NoDup (mkeys (rp_peers s1)) /\ (forall a, work a s1 <= work a s)%nat /\ served s1 = served s /\ work b s1 = wk p').
  { intros p' tx failed O L s1. split; [apply nodup_set, Nk|]. split; [|split].
    - intros a. unfold work. cbn [s1 with_stats upd rp_with_peers rp_peers]. rewrite mget_set. destruct (eq_dec a b) as [->|]; [rewrite G; exact L|reflexivity].
    - rewrite !served_oc. cbn [s1 with_stats upd rp_with_peers rp_peers]. rewrite (Permutation_length (oc_set b p' _ Nk)), (Permutation_length (oc_get b p _ Nk G)), !app_length. unfold oc. rewrite O, Op. reflexivity.
    - unfold work. cbn [s1 with_stats upd rp_with_peers rp_peers]. rewrite mget_set_eq. reflexivity. }
  assert (Close : forall p' tx failed, let s1 := rp_decr (with_stats (upd s b (mkPeer p' [] [] false false)) tx failed) in
     NoDup (mkeys (rp_peers s1)) /\ (forall a, work a s1 <= work a s)%nat /\ (served s1 + 1 <= served s)%nat).
  { intros p' tx failed s1. split; [apply nodup_set, Nk|]. split.
    - intros a. unfold work. cbn [s1 rp_decr rp_with_active with_stats upd rp_with_peers rp_peers]. rewrite mget_set. destruct (eq_dec a b) as [->|]; [cbn; lia|reflexivity].
    - rewrite !served_oc. cbn [s1 rp_decr rp_with_active with_stats upd rp_with_peers rp_peers].
      rewrite (Permutation_length (oc_set b _ _ Nk)), (Permutation_length (oc_get b p _ Nk G)), !app_length. unfold oc. rewrite Op. cbn. lia. }
  unfold peer_iter.
  set (p1 := if pr_flush p && p_flush_ok e then mkPeer (pr_cid p) (pr_pending p) (pr_egress p) false (pr_open p) else p).
  assert (P1 : pr_pending p1 = pr_pending p /\ pr_egress p1 = pr_egress p /\ pr_open p1 = true) by (unfold p1; destruct (pr_flush p && p_flush_ok e); auto).
  destruct P1 as (E1 & G1 & O1). clearbody p1.
  assert (Next : forall p2, pr_open p2 = true -> (wk p2 <= wk p)%nat ->
     peer_handle D b s p (peer_next e (rp_next_rid s) p2 (rp_tx s) (rp_failed s)) = (s', o, st) ->
     NoDup (mkeys (rp_peers s')) /\ (forall a, work a s' <= work a s)%nat /\ rp_conns s' = rp_conns s /\ rp_auths s' = rp_auths s /\
     (served s' + (if match st with PsItem => true | _ => false end then 1 else 0) <= served s)%nat /\ (st = PsLoop -> (work b s' < work b s)%nat)).
  { intros p2 O2 W2. unfold peer_next, peer_handle. destruct Qe as [Qe|Qe]; rewrite Qe.
    - intros H; inversion H; subst. destruct (Core p2 (rp_tx s) (rp_failed s) O2 W2) as (K1 & K2 & K3 & K4).
      split; [exact K1|]. split; [exact K2|]. split; [reflexivity|]. split; [reflexivity|]. split; [rewrite K3; lia|discriminate].
    - intros H; inversion H; subst. destruct (Close (pr_cid p2) (rp_tx s) (rp_failed s)) as (K1 & K2 & K3).
      split; [exact K1|]. split; [exact K2|]. split; [reflexivity|]. split; [reflexivity|]. split; [exact K3|discriminate]. }
  destruct (if p_ready e then pr_egress p1 else []) as [|m q] eqn:Eg.
  - destruct (pick (p_pref e) (rp_os s) (pr_pending p1)) as [[r id]|] eqn:Pk.
    + apply pick_in in Pk. destruct Pk as [Hin _]. apply unpend_len in Hin.
      assert (Lt : (length (pr_egress p1) + 2 * length (unpend r (pr_pending p1)) + 1 < wk p)%nat) by (unfold wk; rewrite <- G1, <- E1; lia).
      destruct (mget r (rp_os s)) as [[ |x0| ]|]; try (apply Next; [exact O1|unfold wk at 1; cbn [pr_egress pr_pending]; lia]).
      destruct (rep_outgoing min co id x0) as [m|]; intros H; inversion H; subst.
      * destruct (Core (mkPeer (pr_cid p1) (unpend r (pr_pending p1)) (pr_egress p1 ++ [m]) (pr_flush p1) (pr_open p1)) (rp_tx s) (rp_failed s) O1) as (K1 & K2 & K3 & K4);
          [unfold wk at 1; cbn [pr_egress pr_pending]; rewrite app_length; cbn [length]; lia|].
        split; [exact K1|]. split; [exact K2|]. split; [reflexivity|]. split; [reflexivity|]. split; [rewrite K3; lia|]. intros _. rewrite K4, (work_get _ _ _ G).
        unfold wk at 1; cbn [pr_egress pr_pending]; rewrite app_length; cbn [length]; lia.
      * destruct (Core (mkPeer (pr_cid p1) (unpend r (pr_pending p1)) (pr_egress p1) (pr_flush p1) (pr_open p1)) (rp_tx s) (rp_failed s) O1) as (K1 & K2 & K3 & K4);
          [unfold wk at 1; cbn [pr_egress pr_pending]; lia|].
        split; [exact K1|]. split; [exact K2|]. split; [reflexivity|]. split; [reflexivity|]. split; [rewrite K3; lia|]. intros _. rewrite K4, (work_get _ _ _ G).
        unfold wk at 1; cbn [pr_egress pr_pending]; lia.
    + apply Next; [exact O1|unfold wk; rewrite G1, E1; lia].
  - assert (Em : pr_egress p1 = m :: q) by (destruct (p_ready e); [exact Eg|discriminate]).
    assert (Lt : (length q + 2 * length (pr_pending p1) < wk p)%nat) by (unfold wk; rewrite <- G1, <- E1, Em; cbn [length]; lia).
    destruct (p_send e); intros H; inversion H; subst.
    + destruct (Core (mkPeer (pr_cid p1) (pr_pending p1) q true (pr_open p1)) (rp_tx s + rr_size m) (rp_failed s) O1) as (K1 & K2 & K3 & K4); [unfold wk at 1; cbn [pr_egress pr_pending]; lia|].
      split; [exact K1|]. split; [exact K2|]. split; [reflexivity|]. split; [reflexivity|]. split; [rewrite K3; lia|]. intros _. rewrite K4, (work_get _ _ _ G).
      unfold wk at 1; cbn [pr_egress pr_pending]; lia.
    + destruct (Close (pr_cid p1) (rp_tx s) (rp_failed s + 1)) as (K1 & K2 & K3).
      split; [exact K1|]. split; [exact K2|]. split; [reflexivity|]. split; [reflexivity|]. split; [exact K3|discriminate].
Qed.

Lemma peer_poll_quiet b : forall es s s' o r, NoDup (mkeys (rp_peers s)) -> (forall e, In e es -> quiet_env e) -> peer_poll b es s = (s', o, r) ->
  NoDup (mkeys (rp_peers s')) /\ (forall a, work a s' <= work a s)%nat /\ rp_conns s' = rp_conns s /\ rp_auths s' = rp_auths s /\
  (served s' + (match r with Some true => 1 | _ => 0 end) <= served s)%nat /\ (r = None -> (length es <= work b s)%nat).
Proof using.
  induction es as [|e es IH]; intros s s' o r Nk Q; cbn [rp_peer_poll].
  - intros H; inversion H; subst. split; [exact Nk|]. split; [auto|]. split; [reflexivity|]. split; [reflexivity|]. split; [lia|cbn; lia].
  - destruct (rp_peer min co D b e s) as [[s1 o1] st] eqn:E. apply peer_quiet in E; [|exact Nk|apply Q; left; reflexivity]. destruct E as (A1 & A2 & A3 & A4 & A5 & A6).
    destruct st.
    + destruct (peer_poll b es s1) as [[s2 o2] r2] eqn:E2. intros H; inversion H; subst. apply IH in E2; [|exact A1|intros; apply Q; right; assumption].
      destruct E2 as (B1 & B2 & B3 & B4 & B5 & B6). split; [exact B1|]. split; [intros a; specialize (A2 a); specialize (B2 a); lia|]. split; [congruence|]. split; [congruence|].
      split; [lia|]. intros X. specialize (B6 X). specialize (A6 eq_refl). cbn [length]. lia.
    + intros H; inversion H; subst. split; [exact A1|]. split; [exact A2|]. split; [exact A3|]. split; [exact A4|]. split; [exact A5|discriminate].
    + intros H; inversion H; subst. split; [exact A1|]. split; [exact A2|]. split; [exact A3|]. split; [exact A4|]. split; [lia|discriminate].
    + intros H; inversion H; subst. split; [exact A1|]. split; [exact A2|]. split; [exact A3|]. split; [exact A4|]. split; [lia|discriminate].
Qed.

Lemma poll_peers_quiet es order : forall s s' o r, NoDup (mkeys (rp_peers s)) -> (forall a e, In e (es a) -> quiet_env e) -> (forall a, (work a s < length (es a))%nat) ->
  poll_peers order es s = (s', o, r) ->
  NoDup (mkeys (rp_peers s')) /\ (forall a, work a s' <= work a s)%nat /\ rp_conns s' = rp_conns s /\ rp_auths s' = rp_auths s /\
  (served s' + (match r with Some true => 1 | _ => 0 end) <= served s)%nat /\ r <> None.
Proof using.
  induction order as [|b order IH]; intros s s' o r Nk Q W; cbn [rp_poll_peers].
  - intros H; inversion H; subst. split; [exact Nk|]. split; [auto|]. split; [reflexivity|]. split; [reflexivity|]. split; [lia|discriminate].
  - destruct (peer_poll b (es b) s) as [[s1 o1] r1] eqn:E. apply peer_poll_quiet in E; [|exact Nk|apply Q]. destruct E as (A1 & A2 & A3 & A4 & A5 & A6).
    destruct r1 as [[|]|].
    + intros H; inversion H; subst. split; [exact A1|]. split; [exact A2|]. split; [exact A3|]. split; [exact A4|]. split; [exact A5|discriminate].
    + destruct (poll_peers order es s1) as [[s2 o2] r2] eqn:E2. intros H; inversion H; subst. apply IH in E2; [|exact A1|exact Q|intros a; specialize (A2 a); specialize (W a); lia].
      destruct E2 as (B1 & B2 & B3 & B4 & B5 & B6). split; [exact B1|]. split; [intros a; specialize (A2 a); specialize (B2 a); lia|]. split; [congruence|]. split; [congruence|]. split; [lia|exact B6].
    + specialize (A6 eq_refl). specialize (W b). lia.
Qed.

Definition todo (s : rp) : nat := (served s + 2 * length (rp_auths s) + 3 * length (rp_conns s))%nat.
Lemma remove_nth_len {A} (l : list A) k x : nth_error l k = Some x -> length l = S (length (firstn k l ++ skipn (S k) l)).
Proof using. intros H. rewrite (Permutation_length (nth_split_perm _ _ _ H)). reflexivity. Qed.
Lemma insert_quiet s cid addr : NoDup (mkeys (rp_peers s)) ->
  NoDup (mkeys (rp_peers (fst (rp_insert s cid addr)))) /\ (forall a, work a (fst (rp_insert s cid addr)) <= work a s)%nat /\ (served (fst (rp_insert s cid addr)) <= served s + 1)%nat.
Proof using.
  intros Nk. cbn [rp_insert fst]. split; [apply nodup_set, Nk|]. split.
  - intros a. unfold work. cbn [rp_with_peers rp_peers]. rewrite mget_set. destruct (eq_dec a addr); [cbn; lia|reflexivity].
  - rewrite !served_oc. cbn [rp_with_peers rp_peers]. rewrite (Permutation_length (oc_set addr _ _ Nk)), app_length. cbn [oc pr_open length].
    destruct (mget addr (rp_peers s)) as [p|] eqn:G; [rewrite (Permutation_length (oc_get addr p _ Nk G)), app_length; lia|].
    rewrite length_del_none by exact G. lia.
Qed.

Lemma iter_quiet d s s' o r : NoDup (mkeys (rp_peers s)) -> quiet d -> (forall a, (work a s < length (d_peers d a))%nat) -> iter d s = (s', o, r) ->
  NoDup (mkeys (rp_peers s')) /\ (forall a, work a s' <= work a s)%nat /\ (todo s' + (match r with Some true => 1 | _ => 0 end) <= todo s)%nat /\ r <> None.
Proof using.
  intros Nk [Qa Qp] W. unfold rp_iter. destruct (poll_peers (d_all d s) (d_peers d) s) as [[s1 o1] r1] eqn:E.
  apply poll_peers_quiet in E; [|exact Nk|exact Qp|exact W]. destruct E as (A1 & A2 & A3 & A4 & A5 & A6).
  destruct r1 as [[|]|]; [|clear A6|congruence].
  - intros H; inversion H; subst. split; [exact A1|]. split; [exact A2|]. split; [unfold todo; rewrite A3, A4; lia|discriminate].
  - rewrite Qa.
    assert (X2 : forall s2 o2 c2, (match d_auth d with Some (k, i, b) => rp_auth auth k i b s1 | None => (s1, [], false) end) = (s2, o2, c2) ->
       NoDup (mkeys (rp_peers s2)) /\ (forall a, work a s2 <= work a s1)%nat /\ (todo s2 + (if c2 then 1 else 0) <= todo s1)%nat).
    { intros s2 o2 c2. assert (Same : (s1, @nil rout, false) = (s2, o2, c2) -> NoDup (mkeys (rp_peers s2)) /\ (forall a, work a s2 <= work a s1)%nat /\ (todo s2 + (if c2 then 1 else 0) <= todo s1)%nat).
      { intros H; inversion H; subst. split; [exact A1|]. split; [auto|lia]. }
      destruct (d_auth d) as [[[k i] b]|]; [|exact Same]. unfold rp_auth. destruct (nth_error (rp_auths s1) k) as [[cid addr]|] eqn:Nt; [|exact Same].
      destruct auth as [au|]; [|exact Same]. pose proof (remove_nth_len _ _ _ Nt) as Len.
      destruct (auth_server au b i) as [[[id| | |] w] rest]; [| | |exact Same].
      - fold (drop_auth s1 k). destruct (insert_quiet (drop_auth s1 k) cid addr A1) as (K1 & K2 & K3).
        assert (K4 : rp_conns (fst (rp_insert (drop_auth s1 k) cid addr)) = rp_conns s1 /\ rp_auths (fst (rp_insert (drop_auth s1 k) cid addr)) = rp_auths (drop_auth s1 k)) by (split; reflexivity).
        destruct (rp_insert (drop_auth s1 k) cid addr) as [s3 o3]. cbn [fst] in *. intros H; inversion H; subst. split; [exact K1|]. split; [exact K2|].
        destruct K4 as [K4 K5]. unfold todo. rewrite K4, K5, Len. change (served (drop_auth s1 k)) with (served s1) in K3. cbn [drop_auth rp_auths]. lia.
      - intros H; inversion H; subst. split; [exact A1|]. split; [intros a; reflexivity|]. unfold todo. rewrite Len. cbn [rp_decr rp_with_active rp_auths rp_conns].
        match goal with |- (?x + _ + _ + _ <= _)%nat => change x with (served s1) end. cbn [skipn]. lia.
      - intros H; inversion H; subst. split; [exact A1|]. split; [intros a; reflexivity|]. unfold todo. rewrite Len. cbn [rp_auths rp_conns].
        match goal with |- (?x + _ + _ + _ <= _)%nat => change x with (served s1) end. cbn [skipn]. lia. }
    destruct (match d_auth d with Some (k, i, b) => rp_auth auth k i b s1 | None => (s1, [], false) end) as [[s2 o2] c2]. destruct (X2 _ _ _ eq_refl) as (B1 & B2 & B3). clear X2.
    assert (T1 : (todo s1 <= todo s)%nat) by (unfold todo; rewrite A3, A4; lia).
    destruct c2.
    { intros H; inversion H; subst. split; [exact B1|]. split; [intros a; specialize (A2 a); specialize (B2 a); lia|]. split; [lia|discriminate]. }
    assert (X3 : forall s3 o3 c3, (match d_conn d with Some (k, r) => rp_conn auth k r s2 | None => (s2, [], false) end) = (s3, o3, c3) ->
       NoDup (mkeys (rp_peers s3)) /\ (forall a, work a s3 <= work a s2)%nat /\ (todo s3 + (if c3 then 1 else 0) <= todo s2)%nat).
    { intros s3 o3 c3. assert (Same : (s2, @nil rout, false) = (s3, o3, c3) -> NoDup (mkeys (rp_peers s3)) /\ (forall a, work a s3 <= work a s2)%nat /\ (todo s3 + (if c3 then 1 else 0) <= todo s2)%nat).
      { intros H; inversion H; subst. split; [exact B1|]. split; [auto|lia]. }
      destruct (d_conn d) as [[k r0]|]; [|exact Same]. unfold rp_conn. destruct (nth_error (rp_conns s2) k) as [cid|] eqn:Nt; [|exact Same].
      pose proof (remove_nth_len _ _ _ Nt) as Len. 
      assert (Fail : (rp_decr (drop_conn s2 k), [RGone cid], true) = (s3, o3, c3) -> NoDup (mkeys (rp_peers s3)) /\ (forall a, work a s3 <= work a s2)%nat /\ (todo s3 + (if c3 then 1 else 0) <= todo s2)%nat).
      { intros H; inversion H; subst. split; [exact B1|]. split; [intros a; reflexivity|]. unfold todo. rewrite Len. cbn [rp_decr rp_with_active drop_conn rp_auths rp_conns].
        match goal with |- (?x + _ + _ + _ <= _)%nat => change x with (served s2) end. cbn [skipn]. lia. }
      destruct r0 as [[addr|]|]; [|exact Fail|exact Fail]. destruct auth as [au|].
      - intros H; inversion H; subst. split; [exact B1|]. split; [intros a; reflexivity|]. unfold todo. rewrite Len. cbn [rp_auths rp_conns]. rewrite app_length. cbn [length].
        match goal with |- (?x + _ + _ + _ <= _)%nat => change x with (served s2) end. cbn [skipn]. lia.
      - fold (drop_conn s2 k). destruct (insert_quiet (drop_conn s2 k) cid addr B1) as (K1 & K2 & K3).
        assert (K4 : rp_conns (fst (rp_insert (drop_conn s2 k) cid addr)) = rp_conns (drop_conn s2 k) /\ rp_auths (fst (rp_insert (drop_conn s2 k) cid addr)) = rp_auths s2) by (split; reflexivity).
        destruct (rp_insert (drop_conn s2 k) cid addr) as [s4 o4]. cbn [fst] in *. intros H; inversion H; subst. split; [exact K1|]. split; [exact K2|].
        destruct K4 as [K4 K5]. unfold todo. rewrite K4, K5, Len. change (served (drop_conn s2 k)) with (served s2) in K3. cbn [drop_conn rp_conns]. lia. }
    destruct (match d_conn d with Some (k, r) => rp_conn auth k r s2 | None => (s2, [], false) end) as [[s3 o3] c3]. destruct (X3 _ _ _ eq_refl) as (C1 & C2 & C3). clear X3.
    destruct c3; intros H; inversion H; subst; (split; [exact C1|]); (split; [intros a; specialize (A2 a); specialize (B2 a); specialize (C2 a); lia|]); (split; [lia|discriminate]).
Qed.

Lemma poll_quiet : forall ds s s' o, NoDup (mkeys (rp_peers s)) -> (forall d, In d ds -> quiet d) -> (forall d a, In d ds -> (work a s < length (d_peers d a))%nat) ->
  poll ds s = (s', o, false) -> (length ds <= todo s)%nat.
Proof using.
  induction ds as [|d ds IH]; intros s s' o Nk Q W; cbn [rp_poll]; [cbn; lia|].
  destruct (iter d s) as [[s1 o1] r1] eqn:E. apply iter_quiet in E; [|exact Nk|apply Q; left; reflexivity|intros a; apply W; left; reflexivity].
  destruct E as (A1 & A2 & A3 & A4). destruct r1 as [[|]|]; [|discriminate|congruence].
  destruct (poll ds s1) as [[s2 o2] r2] eqn:E2. intros H; inversion H; subst.
  apply IH in E2; [cbn [length]; lia|exact A1|intros; apply Q; right; assumption|]. intros d' a Hd. specialize (A2 a). specialize (W d' a (or_intror Hd)). lia.
Qed.
End P.
