(** Invariants of the reply driver. *)
From Coq Require Import ZArith ZifyBool ZifyNat ZifyN Permutation.
From Verif Require Import Model.Base Model.Map Model.WireReqRep Model.Compression Model.Stats Model.Framed Model.WireAuth
  Model.Handshake Model.ReqDriver Model.RepDriver Spec.CompressSpec Spec.RepSpec Proofs.BaseP Proofs.MapP.
Local Open Scope N_scope.

Lemma mset_mset {K V} {E : EqDec K} (k : K) (v v' : V) m : mset k v' (mset k v m) = mset k v' m.
Proof.
  induction m as [|[a b] m IH]; cbn; [destruct (eq_dec k k); congruence|].
  destruct (eq_dec k a) as [->|N]; cbn; [destruct (eq_dec a a); congruence|]. destruct (eq_dec k a); [congruence|]. rewrite IH. reflexivity.
Qed.

Lemma mset_same {K V} {E : EqDec K} (k : K) (v : V) m : mget k m = Some v -> mset k v m = m.
Proof.
  induction m as [|[a b] m IH]; cbn; [discriminate|]. destruct (eq_dec k a) as [->|N].
  - intros H; inversion H; reflexivity.
  - intros H; rewrite IH by exact H; reflexivity.
Qed.

Definition upd (s : rp) (a : N) (p : peer) : rp := rp_with_peers s (mset a p (rp_peers s)).
Definition with_stats (s : rp) (tx failed : N) : rp :=
  mkRp (rp_active s) (rp_conns s) (rp_auths s) (rp_peers s) (rp_chan s) (rp_held s) (rp_os s) (rp_next_rid s) (rp_next_cid s)
       tx (rp_rx s) failed (rp_dropped s).
Definition drop_auth (s : rp) (k : nat) : rp :=
  mkRp (rp_active s) (rp_conns s) (firstn k (rp_auths s) ++ skipn (S k) (rp_auths s)) (rp_peers s) (rp_chan s)
       (rp_held s) (rp_os s) (rp_next_rid s) (rp_next_cid s) (rp_tx s) (rp_rx s) (rp_failed s) (rp_dropped s).
Definition drop_conn (s : rp) (k : nat) : rp :=
  mkRp (rp_active s) (firstn k (rp_conns s) ++ skipn (S k) (rp_conns s)) (rp_auths s) (rp_peers s) (rp_chan s)
       (rp_held s) (rp_os s) (rp_next_rid s) (rp_next_cid s) (rp_tx s) (rp_rx s) (rp_failed s) (rp_dropped s).
Definition add_auth (s : rp) (cid addr : N) : rp :=
  mkRp (rp_active s) (rp_conns s) (rp_auths s ++ [(cid, addr)]) (rp_peers s) (rp_chan s)
       (rp_held s) (rp_os s) (rp_next_rid s) (rp_next_cid s) (rp_tx s) (rp_rx s) (rp_failed s) (rp_dropped s).
Definition add_conn (s : rp) : rp :=
  mkRp (rp_active s) (rp_conns s ++ [rp_next_cid s]) (rp_auths s) (rp_peers s) (rp_chan s) (rp_held s) (rp_os s)
       (rp_next_rid s) (rp_next_cid s + 1) (rp_tx s) (rp_rx s) (rp_failed s) (rp_dropped s).

Lemma upd_upd s a p p' : upd (upd s a p) a p' = upd s a p'.
Proof. unfold upd, rp_with_peers. cbn. rewrite mset_mset. reflexivity. Qed.

Section P.
Variables (max : option N) (min : N) (auth : option (bytes -> bool)) (co : option compressor) (D : decompressors).

Notation act := (rp_act max min auth co D).
Notation run := (rp_run max min auth co D).

Inductive prim : rp -> list rout -> rp -> Prop :=
| Pflush s a p : mget a (rp_peers s) = Some p -> pr_open p = true ->
    prim s [] (upd s a (mkPeer (pr_cid p) (pr_pending p) (pr_egress p) false true))
| Phand s a p m q (ok : bool) : mget a (rp_peers s) = Some p -> pr_open p = true -> pr_egress p = m :: q ->
    prim s [RHanded (pr_cid p) m ok]
      (with_stats (upd s a (mkPeer (pr_cid p) (pr_pending p) q (if ok then true else pr_flush p) true))
                  (if ok then rp_tx s + rr_size m else rp_tx s) (if ok then rp_failed s else rp_failed s + 1))
| Pqueue s a p r id x m : mget a (rp_peers s) = Some p -> pr_open p = true -> In (r, id) (pr_pending p) ->
    mget r (rp_os s) = Some (OsSent x) -> rep_outgoing min co id x = Some m ->
    prim s [RQueued (pr_cid p) r m] (upd s a (mkPeer (pr_cid p) (unpend r (pr_pending p)) (pr_egress p ++ [m]) (pr_flush p) true))
| Punsend s a p r id x : mget a (rp_peers s) = Some p -> pr_open p = true -> In (r, id) (pr_pending p) ->
    mget r (rp_os s) = Some (OsSent x) -> rep_outgoing min co id x = None ->
    prim s [RUnsendable (pr_cid p) r] (upd s a (mkPeer (pr_cid p) (unpend r (pr_pending p)) (pr_egress p) (pr_flush p) true))
| Pdrop s a p r id : mget a (rp_peers s) = Some p -> pr_open p = true -> In (r, id) (pr_pending p) ->
    mget r (rp_os s) <> Some OsWait -> (forall x, mget r (rp_os s) <> Some (OsSent x)) ->
    prim s [] (upd s a (mkPeer (pr_cid p) (unpend r (pr_pending p)) (pr_egress p) (pr_flush p) true))
| Pclose s a p : mget a (rp_peers s) = Some p -> pr_open p = true ->
    prim s [RGone (pr_cid p)] (rp_decr (upd s a (mkPeer (pr_cid p) [] [] false false)))
| Preq s a p m : mget a (rp_peers s) = Some p -> pr_open p = true ->
    prim s (snd (rp_on_request D (upd s a (mkPeer (pr_cid p) (pr_pending p ++ [(rp_next_rid s, rr_id m)]) (pr_egress p) (pr_flush p) true)) a (pr_cid p) m))
           (fst (rp_on_request D (upd s a (mkPeer (pr_cid p) (pr_pending p ++ [(rp_next_rid s, rr_id m)]) (pr_egress p) (pr_flush p) true)) a (pr_cid p) m))
| Premove s a p : mget a (rp_peers s) = Some p -> pr_open p = false -> prim s [] (rp_with_peers s (mdel a (rp_peers s)))
| PauthOk s k cid addr au input send_ok id w rest : nth_error (rp_auths s) k = Some (cid, addr) -> auth = Some au ->
    auth_server au send_ok input = (AuthOk id, w, rest) ->
    prim s ([RAuthReply cid w; RAuthed cid input id] ++ snd (rp_insert (drop_auth s k) cid addr)) (fst (rp_insert (drop_auth s k) cid addr))
| PauthErr s k cid addr au input send_ok w rest : nth_error (rp_auths s) k = Some (cid, addr) -> auth = Some au ->
    auth_server au send_ok input = (AuthErr, w, rest) ->
    prim s [RAuthReply cid w; RGone cid] (rp_decr (drop_auth s k))
| PauthPanic s k cid addr au input send_ok w rest : nth_error (rp_auths s) k = Some (cid, addr) -> auth = Some au ->
    auth_server au send_ok input = (AuthPanic, w, rest) ->
    prim s [RPanicked cid] (drop_auth s k)
| PconnFail s k cid : nth_error (rp_conns s) k = Some cid -> prim s [RGone cid] (rp_decr (drop_conn s k))
| PconnAuth s k cid addr : nth_error (rp_conns s) k = Some cid -> auth <> None -> prim s [] (add_auth (drop_conn s k) cid addr)
| PconnOpen s k cid addr : nth_error (rp_conns s) k = Some cid -> auth = None ->
    prim s (snd (rp_insert (drop_conn s k) cid addr)) (fst (rp_insert (drop_conn s k) cid addr))
| Prefuse s : prim s [RRefused] s
| Paccept s : (forall m, max = Some m -> rp_active s < m) -> prim s [RAccepted (rp_next_cid s)] (rp_incr (add_conn s))
| Precv s q rest : rp_chan s = q :: rest -> prim s [RReceived q] (rp_set_app s rest (q_rid q :: rp_held s) (rp_os s) (rp_dropped s))
| Prespond s rid x : In rid (rp_held s) -> os_receiver s rid = true ->
    prim s [RResponded rid x true] (rp_set_app s (rp_chan s) (sdel rid (rp_held s)) (mset rid (OsSent x) (rp_os s)) (rp_dropped s))
| PrespondLate s rid x : In rid (rp_held s) -> os_receiver s rid = false ->
    prim s [RResponded rid x false] (rp_set_app s (rp_chan s) (sdel rid (rp_held s)) (mset rid OsDropped (rp_os s)) (rp_dropped s))
| Pdiscard s rid : In rid (rp_held s) ->
    prim s [RDiscarded rid] (rp_set_app s (rp_chan s) (sdel rid (rp_held s)) (mset rid OsDropped (rp_os s)) (rp_dropped s))
| PdropSocket s : prim s (RSocketDropped :: map (fun q => RDiscarded (q_rid q)) (rp_chan s))
    (rp_set_app s [] (rp_held s) (fold_left (fun os q => mset (q_rid q) OsDropped os) (rp_chan s) (rp_os s)) true).

Inductive prims : rp -> list rout -> rp -> Prop :=
| prims_nil s : prims s [] s
| prims_cons s o1 s1 o2 s2 : prim s o1 s1 -> prims s1 o2 s2 -> prims s (o1 ++ o2) s2.

Lemma prims_one s o s' : prim s o s' -> prims s o s'.
Proof using. intros H. rewrite <- (app_nil_r o). eapply prims_cons; [exact H|constructor]. Qed.
Lemma prims_app s o1 s1 o2 s2 : prims s o1 s1 -> prims s1 o2 s2 -> prims s (o1 ++ o2) s2.
Proof using.
  intros H. revert o2 s2. induction H as [|s oa sa ob sb Hp Hs IH]; intros o2 s2 H2; [exact H2|].
  rewrite <- app_assoc. eapply prims_cons; [exact Hp|]. apply IH, H2.
Qed.

Lemma pick_in pref os l e : pick pref os l = Some e -> In e l /\ os_done os e = true.
Proof using.
  unfold pick. destruct pref as [k|]; [|discriminate]. destruct (find _ _) as [e'|] eqn:F.
  - intros H; inversion H; subst. apply find_some in F. destruct F as [F _]. apply filter_In in F. exact F.
  - destruct (filter (os_done os) l) as [|e' l'] eqn:Fl; [discriminate|]. intros H; inversion H; subst. apply filter_In. rewrite Fl. left; reflexivity.
Qed.

Lemma upd_same s a p : mget a (rp_peers s) = Some p -> upd s a p = s.
Proof using. intros H. unfold upd, rp_with_peers. rewrite mset_same by exact H. destruct s; reflexivity. Qed.

(** What the driver does with the result of a peer iteration. *)
Definition peer_handle (a : N) (s : rp) (p : peer) (x : peer * N * N * list rout * pres) : rp * list rout * pstat :=
  match x with
  | (p', tx, failed, o, r) =>
    let p'' := match r with PNone => mkPeer (pr_cid p') [] [] false false | _ => p' end in
    let s1 := with_stats (upd s a p'') tx failed in
    match r with
    | PCont => (s1, o, PsLoop)
    | PPend => (s1, o, PsPending)
    | PErr => (s1, o, PsItem)
    | PNone => (rp_decr s1, o ++ [RGone (pr_cid p)], PsItem)
    | PReq m => let (s2, o2) := rp_on_request D s1 a (pr_cid p) m in (s2, o ++ o2, PsItem)
    end
  end.

(** The last part of a peer iteration. *)
Definition peer_next (e : penv) (rid : N) (p : peer) (tx failed : N) : peer * N * N * list rout * pres :=
  match p_next e with
  | NxMsg m => (mkPeer (pr_cid p) (pr_pending p ++ [(rid, rr_id m)]) (pr_egress p) (pr_flush p) (pr_open p), tx, failed, [], PReq m)
  | NxErr => (p, tx, failed, [], PErr)
  | NxEof => (p, tx, failed, [], PNone)
  | NxPending => (p, tx, failed, [], PPend)
  end.

(** [s2] differs from [s] at most in the peer [a]. *)
Definition near (a : N) (p : peer) (s s2 : rp) : Prop :=
  mget a (rp_peers s2) = Some p /\ (forall q, upd s2 a q = upd s a q) /\ rp_os s2 = rp_os s /\ rp_next_rid s2 = rp_next_rid s /\ rp_tx s2 = rp_tx s /\ rp_failed s2 = rp_failed s.

Lemma next_step a e s s2 p p2 os2 s' o st : prims s os2 s2 -> near a p2 s s2 -> pr_open p2 = true -> pr_cid p2 = pr_cid p ->
  peer_handle a s p (peer_next e (rp_next_rid s) p2 (rp_tx s) (rp_failed s)) = (s', o, st) -> prims s (os2 ++ o) s'.
Proof using.
  intros Q0 (N1 & N2 & N3 & N4 & N5 & N6) Op C. unfold peer_next, peer_handle.
  assert (W : forall q, with_stats (upd s a q) (rp_tx s) (rp_failed s) = upd s2 a q).
  { intros q. rewrite N2. reflexivity. }
  destruct (p_next e) as [m| | |]; rewrite ?W.
  - rewrite Op. intros H. pose proof (Preq s2 a p2 m N1 Op) as PP. rewrite N4, C in PP.
    rewrite C in H. destruct (rp_on_request D _ a (pr_cid p) m) as [s3 o3]. inversion H; subst. cbn [fst snd app] in *.
    eapply prims_app; [exact Q0|]. apply prims_one, PP.
  - intros H; inversion H; subst. rewrite upd_same by exact N1. rewrite app_nil_r. exact Q0.
  - intros H; inversion H; subst. cbn [app]. eapply prims_app; [exact Q0|]. apply prims_one. rewrite <- C. eapply Pclose; eauto.
  - intros H; inversion H; subst. rewrite upd_same by exact N1. rewrite app_nil_r. exact Q0.
Qed.

Lemma rp_peer_eq a e s : rp_peer min co D a e s =
  match mget a (rp_peers s) with
  | None => (s, [], PsAbsent)
  | Some p => if pr_open p then peer_handle a s p (peer_iter min co e (rp_os s) (rp_next_rid s) p (rp_tx s) (rp_failed s))
              else (rp_with_peers s (mdel a (rp_peers s)), [], PsPending)
  end.
Proof using. reflexivity. Qed.

Lemma peer_step a e s s' o st : rp_peer min co D a e s = (s', o, st) -> prims s o s'.
Proof using.
  rewrite rp_peer_eq. destruct (mget a (rp_peers s)) as [p|] eqn:G; [|intros H; inversion H; constructor].
  destruct (pr_open p) eqn:Op; [|intros H; inversion H; subst; apply prims_one; eapply Premove; eauto].
  unfold peer_iter.
  set (p1 := if pr_flush p && p_flush_ok e then mkPeer (pr_cid p) (pr_pending p) (pr_egress p) false (pr_open p) else p).
  assert (F : exists s1, prims s [] s1 /\ near a p1 s s1).
  { unfold p1. destruct (pr_flush p && p_flush_ok e).
    - exists (upd s a (mkPeer (pr_cid p) (pr_pending p) (pr_egress p) false true)). rewrite Op.
      split; [apply prims_one; eapply Pflush; eauto|]. split; [apply mget_set_eq|]. split; [intros; apply upd_upd|]. auto.
    - exists s. split; [constructor|]. split; [exact G|]. auto 7. }
  destruct F as (s1 & F0 & F1).
  assert (Op1 : pr_open p1 = true) by (unfold p1; destruct (pr_flush p && p_flush_ok e); assumption).
  assert (C1 : pr_cid p1 = pr_cid p) by (unfold p1; destruct (pr_flush p && p_flush_ok e); reflexivity).
  clearbody p1. pose proof F1 as (N1 & N2 & N3 & N4 & N5 & N6).
  destruct (if p_ready e then pr_egress p1 else []) as [|m q] eqn:Eg.
  - destruct (pick (p_pref e) (rp_os s) (pr_pending p1)) as [[r id]|] eqn:Pk.
    + apply pick_in in Pk. destruct Pk as [Hin Hd]. unfold os_done in Hd. cbn [fst] in Hd.
      assert (Hdrop : mget r (rp_os s) <> Some OsWait -> (forall x, mget r (rp_os s) <> Some (OsSent x)) ->
         peer_handle a s p (peer_next e (rp_next_rid s) (mkPeer (pr_cid p1) (unpend r (pr_pending p1)) (pr_egress p1) (pr_flush p1) (pr_open p1)) (rp_tx s) (rp_failed s)) = (s', o, st) ->
         prims s o s').
      { intros X1 X2 H. rewrite Op1 in H. apply (next_step a e s (upd s1 a (mkPeer (pr_cid p1) (unpend r (pr_pending p1)) (pr_egress p1) (pr_flush p1) true)) p _ [] s' o st) in H; [exact H| | |reflexivity|exact C1].
        - change (@nil rout) with (@nil rout ++ []). eapply prims_app; [exact F0|]. apply prims_one. eapply Pdrop; eauto; rewrite N3; auto.
        - split; [apply mget_set_eq|]. split; [intros; rewrite upd_upd; apply N2|]. cbn. auto. }
      destruct (mget r (rp_os s)) as [[|x|]|] eqn:Os; [discriminate| | |].
      * destruct (rep_outgoing min co id x) as [m|] eqn:Ro.
        -- intros H; inversion H; subst. rewrite Op1, <- N5, <- N6. change [RQueued (pr_cid p1) r m] with ([] ++ [RQueued (pr_cid p1) r m]). eapply prims_app; [exact F0|].
           apply prims_one. rewrite <- N2. rewrite <- N3 in Os. exact (Pqueue s1 a p1 r id x m N1 Op1 Hin Os Ro).
        -- intros H; inversion H; subst. rewrite Op1, <- N5, <- N6. change [RUnsendable (pr_cid p1) r] with ([] ++ [RUnsendable (pr_cid p1) r]). eapply prims_app; [exact F0|].
           apply prims_one. rewrite <- N2. rewrite <- N3 in Os. exact (Punsend s1 a p1 r id x N1 Op1 Hin Os Ro).
      * apply Hdrop; discriminate.
      * apply Hdrop; discriminate.
    + intros H. apply (next_step a e s s1 p p1 [] s' o st F0 F1 Op1 C1 H).
  - assert (Em : pr_egress p1 = m :: q) by (destruct (p_ready e); [exact Eg|discriminate]).
    destruct (p_send e).
    + intros H; inversion H; subst. rewrite Op1, <- N2, <- N5, <- N6. change [RHanded (pr_cid p1) m true] with ([] ++ [RHanded (pr_cid p1) m true]).
      eapply prims_app; [exact F0|]. apply prims_one. exact (Phand s1 a p1 m q true N1 Op1 Em).
    + intros H; inversion H; subst. change [RHanded (pr_cid p1) m false; RGone (pr_cid p)] with ([] ++ [RHanded (pr_cid p1) m false] ++ [RGone (pr_cid p)]).
      eapply prims_app; [exact F0|]. eapply prims_app; [apply prims_one; exact (Phand s1 a p1 m q false N1 Op1 Em)|].
      apply prims_one. cbn [pr_cid].
      match goal with |- prim ?x _ _ => set (sx := x) end.
      assert (G2 : mget a (rp_peers sx) = Some (mkPeer (pr_cid p1) (pr_pending p1) q (pr_flush p1) true)) by (unfold sx; cbn; apply mget_set_eq).
      pose proof (Pclose sx a _ G2 eq_refl) as PP. cbn [pr_cid] in PP. rewrite C1 in PP at 1.
      replace (rp_decr (with_stats (upd s a (mkPeer (pr_cid p1) [] [] false false)) (rp_tx s) (rp_failed s + 1)))
        with (rp_decr (upd sx a (mkPeer (pr_cid p1) [] [] false false))); [exact PP|].
      rewrite <- N2, <- N5, <- N6. unfold sx, upd, with_stats, rp_with_peers. cbn. rewrite mset_mset. reflexivity.
Qed.

Lemma act_prims s ev s' o : act s ev = (s', o) -> prims s o s'.
Proof using.
  destruct ev as [a e|k i b|k r| | |rid x|rid|]; cbn [rp_act].
  - destruct (rp_peer min co D a e s) as [[s1 o1] st] eqn:E. intros H; inversion H; subst. eapply peer_step; eauto.
  - unfold rp_auth. destruct (nth_error (rp_auths s) k) as [[cid addr]|] eqn:Nk; [|intros H; inversion H; constructor].
    destruct auth as [au|] eqn:Au; [|intros H; inversion H; constructor].
    destruct (auth_server au b i) as [[[id| | |] w] rest] eqn:As.
    + fold (drop_auth s k). pose proof (PauthOk s k cid addr au i b id w rest Nk Au As) as PP.
      destruct (rp_insert (drop_auth s k) cid addr) as [s2 o2]. intros H; inversion H; subst. apply prims_one, PP.
    + intros H; inversion H; subst. apply prims_one. eapply PauthErr; eauto.
    + intros H; inversion H; subst. apply prims_one. eapply PauthPanic; eauto.
    + intros H; inversion H; constructor.
  - unfold rp_conn. destruct (nth_error (rp_conns s) k) as [cid|] eqn:Nk; [|intros H; inversion H; constructor].
    destruct r as [[addr|]|].
    + destruct auth as [au|] eqn:Au.
      * intros H; inversion H; subst. apply prims_one. eapply PconnAuth; eauto. rewrite Au; discriminate.
      * fold (drop_conn s k). pose proof (PconnOpen s k cid addr Nk Au) as PP.
        destruct (rp_insert (drop_conn s k) cid addr) as [s2 o2]. intros H; inversion H; subst. apply prims_one, PP.
    + intros H; inversion H; subst. apply prims_one. eapply PconnFail; eauto.
    + intros H; inversion H; subst. apply prims_one. eapply PconnFail; eauto.
  - unfold rp_accept. destruct (match max with Some m => m <=? rp_active s | None => false end) eqn:M; intros H; inversion H; subst; apply prims_one.
    + constructor.
    + apply (Paccept s). intros m Hm. rewrite Hm in M. lia.
  - destruct (rp_chan s) as [|q rest] eqn:Ch; intros H; inversion H; subst; [constructor|]. apply prims_one. constructor; exact Ch.
  - destruct (smem rid (rp_held s)) eqn:Hh; [|intros H; inversion H; constructor]. apply smem_true in Hh.
    destruct (os_receiver s rid) eqn:Or; intros H; inversion H; subst; apply prims_one; [apply Prespond|apply PrespondLate]; assumption.
  - destruct (smem rid (rp_held s)) eqn:Hh; [|intros H; inversion H; constructor]. apply smem_true in Hh.
    intros H; inversion H; subst. apply prims_one. apply Pdiscard; assumption.
  - intros H; inversion H; subst. apply prims_one. constructor.
Qed.

Lemma run_app evs1 : forall evs2 s, run s (evs1 ++ evs2) = let (s1, o1) := run s evs1 in let (s2, o2) := run s1 evs2 in (s2, o1 ++ o2).
Proof using.
  induction evs1 as [|ev evs1 IH]; intros evs2 s; cbn [app rp_run]; [destruct (run s evs2); reflexivity|].
  destruct (act s ev) as [s1 o1]. rewrite IH. destruct (run s1 evs1) as [s2 o2]. destruct (run s2 evs2) as [s3 o3]. rewrite app_assoc. reflexivity.
Qed.

Lemma run_prims evs : forall s s' L, run s evs = (s', L) -> prims s L s'.
Proof using.
  induction evs as [|ev evs IH]; intros s s' L H; cbn [rp_run] in H; [inversion H; constructor|].
  destruct (act s ev) as [s1 o1] eqn:A. destruct (run s1 evs) as [s2 o2] eqn:R. inversion H; subst.
  eapply prims_app; [eapply act_prims; eauto|]. eapply IH; eauto.
Qed.

(** Invariants over the log: preserved by prims, so by runs. *)
Lemma prims_inv (I : list rout -> rp -> Prop) :
  (forall L s o s', I L s -> prim s o s' -> I (L ++ o) s') ->
  forall s o s', prims s o s' -> forall L, I L s -> I (L ++ o) s'.
Proof using.
  intros Hp s o s' H. induction H as [|s o1 s1 o2 s2 P Ps IH]; intros L HI; [rewrite app_nil_r; exact HI|].
  rewrite app_assoc. apply IH. eapply Hp; eauto.
Qed.
Lemma run_inv (I : list rout -> rp -> Prop) :
  (forall L s o s', I L s -> prim s o s' -> I (L ++ o) s') -> I [] rp_init ->
  forall evs s L, run rp_init evs = (s, L) -> I L s.
Proof using. intros Hp H0 evs s L R. apply run_prims in R. exact (prims_inv I Hp _ _ _ R [] H0). Qed.

(** * Accounting of connections *)
Definition oc (p : peer) : list N := if pr_open p then [pr_cid p] else [].
Definition open_cids (ps : list (N * peer)) : list N := flat_map (fun ap => oc (snd ap)) ps.
Definition connections (s : rp) : list N := rp_conns s ++ map fst (rp_auths s) ++ open_cids (rp_peers s).

Lemma oc_get a p ps : NoDup (mkeys ps) -> mget a ps = Some p -> Permutation (open_cids ps) (oc p ++ open_cids (mdel a ps)).
Proof using.
  induction ps as [|[b q] ps IH]; cbn [mget mdel mkeys map fst]; [discriminate|]. intros N. inversion N as [|? ? Hn1 Hn2]; subst.
  destruct (eq_dec a b) as [->|Ne].
  - intros H; inversion H; subst. rewrite length_del_none; [reflexivity|]. apply mget_not_keys. assumption.
  - intros H. cbn [open_cids flat_map snd]. fold (open_cids ps) (open_cids (mdel a ps)). rewrite (IH Hn2 H), !app_assoc.
    apply Permutation_app_tail. apply Permutation_app_comm.
Qed.
Lemma oc_set a p ps : NoDup (mkeys ps) -> Permutation (open_cids (mset a p ps)) (oc p ++ open_cids (mdel a ps)).
Proof using.
  intros N. rewrite (oc_get a p (mset a p ps)); [|apply nodup_set; exact N|apply mget_set_eq].
  apply Permutation_app_head. replace (mdel a (mset a p ps)) with (mdel a ps); [reflexivity|].
  clear N. induction ps as [|[b q] ps IH]; cbn; [destruct (eq_dec a a); congruence|].
  destruct (eq_dec a b) as [->|Ne]; cbn; [destruct (eq_dec b b); congruence|]. destruct (eq_dec a b); [congruence|]. rewrite IH; reflexivity.
Qed.

Lemma admitted_app a b : admitted (a ++ b) = admitted a ++ admitted b. Proof using. apply flat_map_app. Qed.
Lemma ended_app a b : ended (a ++ b) = ended a ++ ended b. Proof using. apply flat_map_app. Qed.
Lemma leaked_app a b : leaked (a ++ b) = leaked a ++ leaked b. Proof using. apply flat_map_app. Qed.

Definition inv1 (L : list rout) (s : rp) : Prop :=
  NoDup (mkeys (rp_peers s)) /\ NoDup (admitted L) /\ (forall c, In c (admitted L) -> c < rp_next_cid s) /\
  Permutation (admitted L) (connections s ++ ended L) /\
  rp_active s = wrap64 (blen (connections s) + blen (leaked L)).

Lemma blen_perm {A} (a b : list A) : Permutation a b -> blen a = blen b.
Proof using. intros H. unfold blen. rewrite (Permutation_length H). reflexivity. Qed.

Lemma inv1_same L s o s' : inv1 L s -> NoDup (mkeys (rp_peers s')) -> Permutation (connections s) (connections s') ->
  rp_next_cid s' = rp_next_cid s -> rp_active s' = rp_active s -> admitted o = [] -> ended o = [] -> leaked o = [] -> inv1 (L ++ o) s'.
Proof using.
  intros (I1 & I2 & I3 & I4 & I5) N P E1 E2 A B C. unfold inv1. rewrite admitted_app, ended_app, leaked_app, A, B, C, !app_nil_r, E1, E2.
  split; [exact N|]. split; [exact I2|]. split; [exact I3|]. split; [rewrite <- P; exact I4|]. rewrite <- (blen_perm _ _ P). exact I5.
Qed.

Lemma wrap64_decr n : 0 < n -> wrap64 (wrap64 n + (2 ^ 64 - 1)) = wrap64 (n - 1).
Proof using.
  intros H. unfold wrap64. rewrite N.add_mod_idemp_l by lia. replace (n + (2 ^ 64 - 1)) with (n - 1 + 1 * 2 ^ 64) by lia.
  apply N.mod_add. lia.
Qed.
Lemma wrap64_incr n : wrap64 (wrap64 n + 1) = wrap64 (n + 1).
Proof using. unfold wrap64. apply N.add_mod_idemp_l. lia. Qed.

Lemma inv1_end L s o s' c : inv1 L s -> NoDup (mkeys (rp_peers s')) -> Permutation (connections s) (c :: connections s') ->
  rp_next_cid s' = rp_next_cid s -> rp_active s' = wrap64 (rp_active s + (2 ^ 64 - 1)) -> admitted o = [] -> ended o = [c] -> leaked o = [] ->
  inv1 (L ++ o) s'.
Proof using.
  intros (I1 & I2 & I3 & I4 & I5) N P E1 E2 A B C. unfold inv1. rewrite admitted_app, ended_app, leaked_app, A, B, C, !app_nil_r, E1, E2.
  split; [exact N|]. split; [exact I2|]. split; [exact I3|]. split.
  - rewrite I4, P. rewrite app_assoc. cbn [app]. rewrite Permutation_app_comm. apply Permutation_cons_append.
  - rewrite I5. rewrite (blen_perm _ _ P). rewrite wrap64_decr; [f_equal|]; unfold blen; cbn [length]; lia.
Qed.

Lemma inv1_leak L s o s' c : inv1 L s -> NoDup (mkeys (rp_peers s')) -> Permutation (connections s) (c :: connections s') ->
  rp_next_cid s' = rp_next_cid s -> rp_active s' = rp_active s -> admitted o = [] -> ended o = [c] -> leaked o = [c] -> inv1 (L ++ o) s'.
Proof using.
  intros (I1 & I2 & I3 & I4 & I5) N P E1 E2 A B C. unfold inv1. rewrite admitted_app, ended_app, leaked_app, A, B, C, !app_nil_r, E1, E2.
  split; [exact N|]. split; [exact I2|]. split; [exact I3|]. split.
  - rewrite I4, P. rewrite app_assoc. cbn [app]. rewrite Permutation_app_comm. apply Permutation_cons_append.
  - rewrite I5. rewrite (blen_perm _ _ P). f_equal. unfold blen; rewrite app_length; cbn [length]; lia.
Qed.

Lemma conn_upd s a p p' : NoDup (mkeys (rp_peers s)) -> mget a (rp_peers s) = Some p -> oc p = oc p' -> Permutation (connections s) (connections (upd s a p')).
Proof using.
  intros N G E. unfold connections, upd. cbn. do 2 apply Permutation_app_head. rewrite oc_set by exact N. rewrite (oc_get a p) by assumption. rewrite E. reflexivity.
Qed.

Lemma nth_split_perm {A} (l : list A) k x : nth_error l k = Some x -> Permutation l (x :: firstn k l ++ skipn (S k) l).
Proof using.
  intros H. rewrite <- (firstn_skipn k l) at 1. revert l H. induction k as [|k IH]; intros [|y l] H; cbn [nth_error firstn skipn app] in *; try discriminate.
  - inversion H; reflexivity.
  - rewrite (IH l H). apply perm_swap.
Qed.

Lemma insert_conn s cid addr : NoDup (mkeys (rp_peers s)) ->
  NoDup (mkeys (rp_peers (fst (rp_insert s cid addr)))) /\
  rp_next_cid (fst (rp_insert s cid addr)) = rp_next_cid s /\ rp_active (fst (rp_insert s cid addr)) = rp_active s /\
  admitted (snd (rp_insert s cid addr)) = [] /\ leaked (snd (rp_insert s cid addr)) = ended (snd (rp_insert s cid addr)) /\
  Permutation (cid :: connections s) (ended (snd (rp_insert s cid addr)) ++ connections (fst (rp_insert s cid addr))) /\
  (length (ended (snd (rp_insert s cid addr))) <= 1)%nat.
Proof using.
  intros N. unfold rp_insert. cbn [fst snd]. split; [apply nodup_set; exact N|]. split; [reflexivity|]. split; [reflexivity|].
  assert (P : forall l, Permutation (cid :: connections s) (l ++ connections (rp_with_peers s (mset addr (mkPeer cid [] [] false true) (rp_peers s)))) <->
     Permutation (open_cids (rp_peers s)) (l ++ open_cids (mdel addr (rp_peers s)))).
  { intros l. unfold connections. cbn [rp_conns rp_auths rp_peers rp_with_peers].
    assert (X : Permutation (l ++ rp_conns s ++ map fst (rp_auths s) ++ open_cids (mset addr (mkPeer cid [] [] false true) (rp_peers s)))
      (cid :: rp_conns s ++ map fst (rp_auths s) ++ (l ++ open_cids (mdel addr (rp_peers s))))).
    { rewrite oc_set by exact N. cbn [oc pr_open pr_cid app].
      transitivity (l ++ (rp_conns s ++ map fst (rp_auths s)) ++ cid :: open_cids (mdel addr (rp_peers s))); [rewrite <- app_assoc; reflexivity|].
      rewrite (Permutation_app_swap_app l). rewrite (app_assoc _ l), <- Permutation_middle, <- !app_assoc. reflexivity. }
    split; intros H.
    - rewrite X in H. apply Permutation_cons_inv in H. rewrite !app_assoc in H. rewrite <- !app_assoc in H.
      do 2 apply Permutation_app_inv_l in H. exact H.
    - rewrite X. constructor. do 2 apply Permutation_app_head. exact H. }
  destruct (mget addr (rp_peers s)) as [p|] eqn:G.
  - destruct (pr_open p) eqn:Op; (split; [reflexivity|]); (split; [reflexivity|]); (split; [|cbn; lia]).
    + apply (proj2 (P [pr_cid p])). rewrite (oc_get addr p) by assumption. unfold oc. rewrite Op. reflexivity.
    + apply (proj2 (P [])). rewrite (oc_get addr p) by assumption. unfold oc. rewrite Op. reflexivity.
  - split; [reflexivity|]. split; [reflexivity|]. split; [|cbn; lia]. apply (proj2 (P [])).
    rewrite length_del_none by exact G. reflexivity.
Qed.

Lemma inv1_insert L s0 s pre cid addr : inv1 L s0 -> mkeys (rp_peers s) = mkeys (rp_peers s0) ->
  Permutation (connections s0) (cid :: connections s) -> rp_next_cid s = rp_next_cid s0 -> rp_active s = rp_active s0 ->
  admitted pre = [] -> ended pre = [] -> leaked pre = [] ->
  inv1 (L ++ (pre ++ snd (rp_insert s cid addr))) (fst (rp_insert s cid addr)).
Proof using.
  intros I K P E1 E2 A B C. pose proof I as (I1 & _). rewrite <- K in I1.
  destruct (insert_conn s cid addr I1) as (J1 & J2 & J3 & J4 & J5 & J6 & J7).
  rewrite <- P in J6. destruct (ended (snd (rp_insert s cid addr))) as [|c [|c' l]] eqn:En; [| |cbn in J7; lia].
  - eapply inv1_same; [exact I|exact J1|exact J6|congruence|congruence| | |].
    + rewrite admitted_app, A, J4; reflexivity.
    + rewrite ended_app, B, En; reflexivity.
    + rewrite leaked_app, C, J5; reflexivity.
  - eapply inv1_leak; [exact I|exact J1|exact J6|congruence|congruence| | |].
    + rewrite admitted_app, A, J4; reflexivity.
    + rewrite ended_app, B, En; reflexivity.
    + rewrite leaked_app, C, J5; reflexivity.
Qed.

Lemma drop_conn_perm s k cid : nth_error (rp_conns s) k = Some cid -> Permutation (connections s) (cid :: connections (drop_conn s k)).
Proof using. intros H. unfold connections. cbn [rp_conns rp_auths rp_peers drop_conn]. rewrite (nth_split_perm _ _ _ H) at 1. reflexivity. Qed.
Lemma drop_auth_perm s k cid addr : nth_error (rp_auths s) k = Some (cid, addr) -> Permutation (connections s) (cid :: connections (drop_auth s k)).
Proof using.
  intros H. unfold connections. cbn [rp_conns rp_auths rp_peers drop_auth].
  rewrite (Permutation_map fst (nth_split_perm _ _ _ H)) at 1. cbn [map fst app]. rewrite <- Permutation_middle. reflexivity.
Qed.

Lemma on_request_frame s a cid m : let r := rp_on_request D s a cid m in
  rp_active (fst r) = rp_active s /\ rp_conns (fst r) = rp_conns s /\ rp_auths (fst r) = rp_auths s /\ rp_peers (fst r) = rp_peers s /\
  rp_held (fst r) = rp_held s /\ rp_next_rid (fst r) = rp_next_rid s + 1 /\ rp_next_cid (fst r) = rp_next_cid s /\ rp_tx (fst r) = rp_tx s /\
  rp_failed (fst r) = rp_failed s /\ rp_dropped (fst r) = rp_dropped s /\
  ((exists q, snd r = [RIncoming cid a (rp_next_rid s) m; RYield q] /\ q_rid q = rp_next_rid s /\ q_source q = a /\
        try_decompress D (rr_ctype m) (rr_payload m) = Some (q_msg q) /\ rp_dropped s = false /\
        rp_chan (fst r) = rp_chan s ++ [q] /\ rp_os (fst r) = mset (rp_next_rid s) OsWait (rp_os s)) \/
   (snd r = [RIncoming cid a (rp_next_rid s) m; RLost (rp_next_rid s)] /\
        (try_decompress D (rr_ctype m) (rr_payload m) = None \/ rp_dropped s = true \/ rep_chan_cap <= blen (rp_chan s)) /\
        rp_chan (fst r) = rp_chan s /\ rp_os (fst r) = mset (rp_next_rid s) OsDropped (rp_os s))).
Proof using.
  cbv zeta. unfold rp_on_request. destruct (try_decompress D (rr_ctype m) (rr_payload m)) as [x|] eqn:T.
  - destruct (rp_dropped s || (rep_chan_cap <=? blen (rp_chan s))) eqn:C; cbn [fst snd rp_active rp_conns rp_auths rp_peers rp_held rp_next_rid rp_next_cid rp_tx rp_failed rp_dropped rp_chan rp_os].
    + do 10 (split; [reflexivity|]). right. split; [reflexivity|]. split; [|auto]. right. apply orb_true_iff in C. destruct C as [C|C]; [left; exact C|right; lia].
    + do 10 (split; [reflexivity|]). left. exists (mkReq a (rp_next_rid s) x). apply orb_false_iff in C. destruct C as [C _]. auto 8.
  - cbn [fst snd rp_active rp_conns rp_auths rp_peers rp_held rp_next_rid rp_next_cid rp_tx rp_failed rp_dropped rp_chan rp_os].
    do 10 (split; [reflexivity|]). right. auto 6.
Qed.

Lemma oc_open p p' : pr_open p = true -> pr_open p' = true -> pr_cid p' = pr_cid p -> oc p = oc p'.
Proof using. intros A B C. unfold oc. rewrite A, B, C. reflexivity. Qed.

Lemma inv1_prim L s o s' : inv1 L s -> prim s o s' -> inv1 (L ++ o) s'.
Proof using.
  intros I P. pose proof I as (I1 & _).
  destruct P as [s a p G Op|s a p m q ok G Op E|s a p r id x m G Op Hi Os Ro|s a p r id x G Op Hi Os Ro|s a p r id G Op Hi Os1 Os2|s a p G Op|s a p m G Op|s a p G Op
    |s k cid addr au i b id w rest Nk Au As|s k cid addr au i b w rest Nk Au As|s k cid addr au i b w rest Nk Au As|s k cid Nk|s k cid addr Nk Au|s k cid addr Nk Au
    |s|s Hm|s q rest Ch|s rid x Hh Or|s rid x Hh Or|s rid Hh|s].
  - eapply inv1_same; [exact I|apply nodup_set; exact I1|eapply conn_upd; eauto; apply oc_open; auto|reflexivity..].
  - eapply inv1_same; [exact I|apply nodup_set; exact I1|eapply (conn_upd s a p); eauto; apply oc_open; auto|reflexivity..].
  - eapply inv1_same; [exact I|apply nodup_set; exact I1|eapply conn_upd; eauto; apply oc_open; auto|reflexivity..].
  - eapply inv1_same; [exact I|apply nodup_set; exact I1|eapply conn_upd; eauto; apply oc_open; auto|reflexivity..].
  - eapply inv1_same; [exact I|apply nodup_set; exact I1|eapply conn_upd; eauto; apply oc_open; auto|reflexivity..].
  - eapply (inv1_end L s _ _ (pr_cid p)); [exact I|apply nodup_set; exact I1| |reflexivity..].
    unfold connections. cbn. rewrite oc_set by exact I1. rewrite (oc_get a p) by assumption. unfold oc. rewrite Op. cbn [pr_open pr_cid app].
    rewrite app_assoc, <- Permutation_middle, <- app_assoc. reflexivity.
  - set (s1 := upd s a _). destruct (on_request_frame s1 a (pr_cid p) m) as (F1 & F2 & F3 & F4 & F5 & F6 & F7 & F8 & F9 & F10 & F11).
    eapply inv1_same; [exact I|rewrite F4; apply nodup_set; exact I1| |rewrite F7; reflexivity|rewrite F1; reflexivity| | |].
    + transitivity (connections s1); [eapply conn_upd; eauto; apply oc_open; auto|]. unfold connections. rewrite F2, F3, F4. reflexivity.
    + destruct F11 as [(q & -> & _)|(-> & _)]; reflexivity.
    + destruct F11 as [(q & -> & _)|(-> & _)]; reflexivity.
    + destruct F11 as [(q & -> & _)|(-> & _)]; reflexivity.
  - eapply inv1_same; [exact I|apply nodup_del; exact I1| |reflexivity..].
    unfold connections. cbn. rewrite (oc_get a p) by assumption. unfold oc at 1. rewrite Op. reflexivity.
  - eapply inv1_insert; [exact I|reflexivity| |reflexivity..]. eapply drop_auth_perm; eauto.
  - eapply (inv1_end L s _ _ cid); [exact I|exact I1| |reflexivity..]. apply (drop_auth_perm _ _ _ _ Nk).
  - eapply (inv1_leak L s _ _ cid); [exact I|exact I1| |reflexivity..]. apply (drop_auth_perm _ _ _ _ Nk).
  - eapply (inv1_end L s _ _ cid); [exact I|exact I1| |reflexivity..]. apply (drop_conn_perm _ _ _ Nk).
  - eapply inv1_same; [exact I|exact I1| |reflexivity..]. rewrite (drop_conn_perm _ _ _ Nk). unfold connections. cbn [add_auth drop_conn rp_conns rp_auths rp_peers].
    rewrite map_app. cbn [map fst]. rewrite <- (app_assoc (map fst (rp_auths s))). cbn [app]. rewrite <- (Permutation_middle (map fst (rp_auths s))), <- Permutation_middle. reflexivity.
  - rewrite <- (app_nil_l (snd _)). eapply inv1_insert; [exact I|reflexivity| |reflexivity..]. eapply drop_conn_perm; eauto.
  - eapply inv1_same; [exact I|exact I1|reflexivity..].
  - destruct I as (_ & I2 & I3 & I4 & I5). unfold inv1. rewrite admitted_app, ended_app, leaked_app. cbn [admitted ended leaked flat_map app].
    rewrite !app_nil_r. split; [exact I1|]. split.
    { apply NoDup_rev in I2. rewrite <- (rev_involutive (admitted L ++ [rp_next_cid s])). apply NoDup_rev. rewrite rev_app_distr. cbn. constructor; [|exact I2].
      intros X. apply in_rev in X. apply I3 in X. lia. }
    split; [cbn; intros c Hc; apply in_app_or in Hc; destruct Hc as [Hc|[<-|[]]]; [apply I3 in Hc; lia|lia]|].
    assert (Pc : Permutation (connections (rp_incr (add_conn s))) (rp_next_cid s :: connections s)).
    { unfold connections. cbn [rp_incr rp_with_active add_conn rp_conns rp_auths rp_peers]. rewrite <- app_assoc. cbn [app]. rewrite <- Permutation_middle. reflexivity. }
    split.
    + rewrite Pc, I4. cbn [app]. rewrite <- Permutation_cons_append. reflexivity.
    + cbn [rp_active rp_incr rp_with_active add_conn]. rewrite I5, wrap64_incr, (blen_perm _ _ Pc). f_equal. unfold blen. cbn [length]. lia.
  - eapply inv1_same; [exact I|exact I1|reflexivity..].
  - eapply inv1_same; [exact I|exact I1|reflexivity..].
  - eapply inv1_same; [exact I|exact I1|reflexivity..].
  - eapply inv1_same; [exact I|exact I1|reflexivity..].
  - assert (X : forall (f : rout -> list N), f RSocketDropped = [] -> (forall r, f (RDiscarded r) = []) -> flat_map f (RSocketDropped :: map (fun q => RDiscarded (q_rid q)) (rp_chan s)) = []).
    { intros f H0 Hf. cbn [flat_map]. rewrite H0. cbn [app]. induction (rp_chan s) as [|q l IH]; [reflexivity|]. cbn. rewrite Hf, IH. reflexivity. }
    eapply inv1_same; [exact I|exact I1|reflexivity|reflexivity|reflexivity|apply X; reflexivity..].
Qed.

Lemma run_inv1 evs s L : run rp_init evs = (s, L) -> inv1 L s.
Proof using.
  apply (run_inv inv1 inv1_prim). split; [constructor|]. split; [constructor|]. split; [intros c []|]. split; [constructor|reflexivity].
Qed.

(** [live] of the log = [connections] of the state. *)
Lemma live_perm L s : inv1 L s -> Permutation (live L) (connections s).
Proof using.
  intros (I1 & I2 & I3 & I4 & I5). unfold live.
  assert (N : NoDup (connections s ++ ended L)) by (eapply Permutation_NoDup; eauto).
  assert (Dj : forall c, In c (connections s) -> ~ In c (ended L)).
  { clear - N. induction (connections s) as [|x l IH]; intros c Hc; [destruct Hc|]. cbn in N. inversion N as [|? ? N1 N2]; subst. destruct Hc as [->|Hc].
    - intros X. apply N1, in_or_app. right; exact X.
    - apply (IH N2 c Hc). }
  assert (NC : NoDup (connections s)).
  { clear - N. induction (connections s) as [|x l IH]; [constructor|]. cbn in N. inversion N as [|? ? N1 N2]; subst. constructor; [|apply IH, N2].
    intros X. apply N1, in_or_app. left; exact X. }
  apply NoDup_Permutation; [apply NoDup_filter; exact I2|exact NC|]. intros c. rewrite filter_In, negb_true_iff. split.
  - intros [Ha He]. apply smem_false in He. apply (Permutation_in _ I4) in Ha. apply in_app_or in Ha. tauto.
  - intros Hc. split; [|apply smem_false, Dj, Hc]. apply (Permutation_in (l := connections s ++ ended L)); [symmetry; exact I4|]. apply in_or_app. left; exact Hc.
Qed.
End P.
