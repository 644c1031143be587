(** Invariants of the publisher. *)
From Coq Require Import ZArith ZifyBool ZifyNat ZifyN Permutation Sorting.Sorted.
From Verif Require Import Model.Base Model.Map Model.WirePubSub Model.Compression Model.Stats Model.Framed Model.WireAuth
  Model.Handshake Model.Trie Model.Utf8 Model.PubDriver Spec.CompressSpec Spec.PubSpec Proofs.BaseP Proofs.MapP.
Local Open Scope N_scope.

Definition set_sess (s : pb) (ss : list (N * sess)) (dtx : N) : pb :=
  mkPb (pb_active s) (pb_conns s) (pb_auths s) ss (pb_hist s) (pb_closed s) (pb_next_cid s) (pb_tx s + dtx).
Definition qdrop_auth (s : pb) (k : nat) : pb :=
  mkPb (pb_active s) (pb_conns s) (firstn k (pb_auths s) ++ skipn (S k) (pb_auths s)) (pb_sess s) (pb_hist s)
       (pb_closed s) (pb_next_cid s) (pb_tx s).
Definition qdrop_conn (s : pb) (k : nat) : pb :=
  mkPb (pb_active s) (firstn k (pb_conns s) ++ skipn (S k) (pb_conns s)) (pb_auths s) (pb_sess s) (pb_hist s)
       (pb_closed s) (pb_next_cid s) (pb_tx s).
Definition qadd_auth (s : pb) (cid : N) : pb :=
  mkPb (pb_active s) (pb_conns s) (pb_auths s ++ [cid]) (pb_sess s) (pb_hist s) (pb_closed s) (pb_next_cid s) (pb_tx s).
Definition qadd_conn (s : pb) : pb :=
  mkPb (pb_active s) (pb_conns s ++ [pb_next_cid s]) (pb_auths s) (pb_sess s) (pb_hist s) (pb_closed s) (pb_next_cid s + 1) (pb_tx s).
Definition qpublish (s : pb) (m : pmsg) : pb :=
  mkPb (pb_active s) (pb_conns s) (pb_auths s) (pb_sess s) (pb_hist s ++ [m]) (pb_closed s) (pb_next_cid s) (pb_tx s).
Definition qclose (s : pb) : pb :=
  mkPb (pb_active s) (pb_conns s) (pb_auths s) (pb_sess s) (pb_hist s) true (pb_next_cid s) (pb_tx s).

Section P.
Variables (max : option N) (buf min : N) (auth : option (bytes -> bool)) (co : option compressor).
Notation act := (pb_act max buf min auth co).
Notation run := (pb_run max buf min auth co).
Notation cap := (bcast_cap buf).

(** Steps of a session that goes on. *)
Inductive sstep (cid : N) (hist : list pmsg) (x : sess) : list qout -> N -> sess -> Prop :=
| Kflush fl : sstep cid hist x [] 0 (mkSess (sn_seq x) (sn_pos x) (sn_pending x) (sn_filter x) fl)
| Ksend m fl : sn_pending x = Some m ->
    sstep cid hist x [QHanded cid m true] (ps_size m) (mkSess (sn_seq x) (sn_pos x) None (sn_filter x) fl)
| Ktake p now m fl : sn_pending x = None -> sn_pos x < blen hist -> blen hist <= sn_pos x + cap ->
    nth_error hist (N.to_nat (sn_pos x)) = Some p -> trie_contains (sn_filter x) (pm_topic p) = true ->
    pub_into_wire now (sn_seq x) (pm_topic p) (pm_body p) = Some m ->
    sstep cid hist x [QTook cid (sn_pos x)] 0 (mkSess (wrapping_add32 (sn_seq x) 1) (sn_pos x + 1) (Some m) (sn_filter x) fl)
| Kpass p fl : sn_pending x = None -> sn_pos x < blen hist -> blen hist <= sn_pos x + cap ->
    nth_error hist (N.to_nat (sn_pos x)) = Some p -> trie_contains (sn_filter x) (pm_topic p) = false ->
    sstep cid hist x [QTook cid (sn_pos x)] 0 (mkSess (sn_seq x) (sn_pos x + 1) None (sn_filter x) fl)
| Klag fl : sn_pending x = None -> sn_pos x + cap < blen hist ->
    sstep cid hist x [QSkipped cid (sn_pos x) (blen hist - cap)] 0 (mkSess (sn_seq x) (blen hist - cap) None (sn_filter x) fl)
| Kctl m fl : sn_pending x = None -> sn_pos x = blen hist ->
    sstep cid hist x [QControl cid m (msg_to_control m)] 0
      (mkSess (sn_seq x) (sn_pos x) None (match msg_to_control m with Some op => trie_op (sn_filter x) op | None => sn_filter x end) fl).

Inductive qprim (s : pb) : list qout -> pb -> Prop :=
| Ksess cid x o d x' : mget cid (pb_sess s) = Some x -> sstep cid (pb_hist s) x o d x' ->
    qprim s o (set_sess s (mset cid x' (pb_sess s)) d)
| Kend cid x : mget cid (pb_sess s) = Some x -> qprim s [QGone cid] (pb_decr (set_sess s (mdel cid (pb_sess s)) 0))
| Kfail cid x m : mget cid (pb_sess s) = Some x -> sn_pending x = Some m ->
    qprim s [QHanded cid m false; QGone cid] (pb_decr (set_sess s (mdel cid (pb_sess s)) 0))
| Kcrash cid x p : mget cid (pb_sess s) = Some x -> sn_pending x = None -> sn_pos x < blen (pb_hist s) -> blen (pb_hist s) <= sn_pos x + cap ->
    nth_error (pb_hist s) (N.to_nat (sn_pos x)) = Some p -> trie_contains (sn_filter x) (pm_topic p) = true ->
    2 ^ 16 <= blen (pm_topic p) ->
    qprim s [QTook cid (sn_pos x); QCrashed cid] (pb_decr (set_sess s (mdel cid (pb_sess s)) 0))
| KauthOk k cid au input send_ok id w rest : nth_error (pb_auths s) k = Some cid -> auth = Some au ->
    auth_server au send_ok input = (AuthOk id, w, rest) ->
    qprim s ([QAuthReply cid w; QAuthed cid input id] ++ snd (pb_open cid (qdrop_auth s k))) (fst (pb_open cid (qdrop_auth s k)))
| KauthErr k cid au input send_ok w rest : nth_error (pb_auths s) k = Some cid -> auth = Some au ->
    auth_server au send_ok input = (AuthErr, w, rest) ->
    qprim s [QAuthReply cid w; QGone cid] (pb_decr (qdrop_auth s k))
| KauthPanic k cid au input send_ok w rest : nth_error (pb_auths s) k = Some cid -> auth = Some au ->
    auth_server au send_ok input = (AuthPanic, w, rest) -> qprim s [QPanicked cid] (qdrop_auth s k)
| KconnFail k cid : nth_error (pb_conns s) k = Some cid -> qprim s [QGone cid] (pb_decr (qdrop_conn s k))
| KconnAuth k cid : nth_error (pb_conns s) k = Some cid -> auth <> None -> qprim s [] (qadd_auth (qdrop_conn s k) cid)
| KconnOpen k cid : nth_error (pb_conns s) k = Some cid -> auth = None ->
    qprim s (snd (pb_open cid (qdrop_conn s k))) (fst (pb_open cid (qdrop_conn s k)))
| Krefuse m : max = Some m -> m <= pb_active s -> qprim s [QRefused] s
| Kaccept : (forall m, max = Some m -> pb_active s < m) -> qprim s [QAccepted (pb_next_cid s)] (pb_incr (qadd_conn s))
| Kpublish m : pb_closed s = false -> qprim s [QPublished m] (qpublish s m)
| Kpuberr : qprim s [QPublishErr] s
| Kclose : pb_closed s = false -> qprim s [QClosed] (qclose s)
| Knop : qprim s [] s.

Lemma into_wire_none now q t b : pub_into_wire now q t b = None -> 2 ^ 16 <= blen t.
Proof using. unfold pub_into_wire, ps_new. destruct (N.ltb_spec (blen t) (2 ^ 16)); [discriminate|auto]. Qed.

Lemma set_sess_same s cid x : mget cid (pb_sess s) = Some x -> set_sess s (pb_sess s) 0 = s.
Proof using. intros _. unfold set_sess. rewrite N.add_0_r. destruct s; reflexivity. Qed.

Lemma session_prim cid e s s' o r : pb_session buf cid e s = (s', o, r) -> qprim s o s'.
Proof using.
  unfold pb_session. destruct (mget cid (pb_sess s)) as [x|] eqn:G; [|intros [= <- <- <-]; apply Knop].
  unfold sn_iter. set (fl := if sn_flush x && s_tick e && s_flush_ok e then false else sn_flush x).
  destruct (s_ready e).
  2: { intros [= <- <- <-]. apply (Ksess s cid x [] 0 _ G). apply Kflush. }
  cbn [sn_seq sn_pos sn_pending sn_filter sn_flush].
  destruct (sn_pending x) as [m|] eqn:P.
  { destruct (s_send e).
    - intros [= <- <- <-]. apply (Ksess s cid x _ (ps_size m) _ G). now apply Ksend.
    - intros [= <- <- <-]. exact (Kfail s cid x m G P). }
  unfold bcast_recv. destruct (N.eqb_spec (sn_pos x) (blen (pb_hist s))) as [Q|Q].
  { destruct (if pb_closed s then BClosed else BEmpty) eqn:BB; [destruct (pb_closed s); discriminate..| |].
    - destruct (s_next e) as [m| | |].
      + intros [= <- <- <-]. apply (Ksess s cid x _ 0 _ G). now apply Kctl.
      + intros [= <- <- <-]. exact (Kend s cid x G).
      + intros [= <- <- <-]. exact (Kend s cid x G).
      + intros [= <- <- <-]. pose proof (Kflush cid (pb_hist s) x fl) as K. rewrite P in K. exact (Ksess s cid x [] 0 _ G K).
    - intros [= <- <- <-]. exact (Kend s cid x G). }
  destruct (N.ltb_spec (sn_pos x + cap) (blen (pb_hist s))) as [L|L].
  { intros [= <- <- <-]. apply (Ksess s cid x _ 0 _ G). now apply Klag. }
  destruct (nth_error (pb_hist s) (N.to_nat (sn_pos x))) as [p|] eqn:E.
  2: { intros [= <- <- <-]. pose proof (Kflush cid (pb_hist s) x fl) as K. rewrite P in K. exact (Ksess s cid x [] 0 _ G K). }
  assert (Lt : sn_pos x < blen (pb_hist s)).
  { unfold blen. assert (N.to_nat (sn_pos x) < length (pb_hist s))%nat by (apply nth_error_Some; congruence); lia. }
  destruct (trie_contains (sn_filter x) (pm_topic p)) eqn:C.
  - destruct (pub_into_wire (s_now e) (sn_seq x) (pm_topic p) (pm_body p)) as [m|] eqn:W.
    + intros [= <- <- <-]. apply (Ksess s cid x _ 0 _ G). now apply Ktake with p (s_now e).
    + intros [= <- <- <-]. apply (Kcrash s cid x p); auto. eapply into_wire_none; eauto.
  - intros [= <- <- <-]. apply (Ksess s cid x _ 0 _ G). now apply Kpass with p.
Qed.

Lemma auth_prim k i b s s' o c : pb_auth auth k i b s = (s', o, c) -> qprim s o s'.
Proof using.
  unfold pb_auth. destruct (nth_error (pb_auths s) k) as [cid|] eqn:G; [|intros [= <- <- <-]; apply Knop].
  destruct auth as [au|] eqn:A; [|intros [= <- <- <-]; apply Knop]. cbv zeta.
  destruct (auth_server au b i) as [[r w] rest] eqn:S. destruct r.
  - intros [= <- <- <-]. exact (KauthOk s k cid au i b id w rest G A S).
  - intros [= <- <- <-]. exact (KauthErr s k cid au i b w rest G A S).
  - intros [= <- <- <-]. exact (KauthPanic s k cid au i b w rest G A S).
  - intros [= <- <- <-]. apply Knop.
Qed.

Lemma conn_prim k r s s' o c : pb_conn auth k r s = (s', o, c) -> qprim s o s'.
Proof using.
  unfold pb_conn. destruct (nth_error (pb_conns s) k) as [cid|] eqn:G; [|intros [= <- <- <-]; apply Knop]. cbv zeta.
  destruct r as [[|]|].
  - destruct auth eqn:A.
    + intros [= <- <- <-]. apply (KconnAuth s k cid G). congruence.
    + intros [= <- <- <-]. now apply (KconnOpen s k cid G).
  - intros [= <- <- <-]. exact (KconnFail s k cid G).
  - intros [= <- <- <-]. exact (KconnFail s k cid G).
Qed.

Lemma accept_prim s s' o : pb_accept max s = (s', o) -> qprim s o s'.
Proof using.
  unfold pb_accept. destruct max as [m|] eqn:M.
  - destruct (N.leb_spec m (pb_active s)); intros [= <- <-]; [now apply Krefuse with m|]. apply Kaccept. intros m'. rewrite M. intros [= <-]. auto.
  - intros [= <- <-]. apply Kaccept. intros m'. rewrite M. discriminate.
Qed.

Lemma act_prim s ev s' o : act s ev = (s', o) -> qprim s o s'.
Proof using.
  destruct ev; cbn [pb_act].
  - destruct (pb_session buf cid e s) as [[s1 o1] r] eqn:E. intros [= <- <-]. exact (session_prim _ _ _ _ _ _ E).
  - destruct (pb_auth auth k input send_ok s) as [[s1 o1] r] eqn:E. intros [= <- <-]. exact (auth_prim _ _ _ _ _ _ _ E).
  - destruct (pb_conn auth k res s) as [[s1 o1] r] eqn:E. intros [= <- <-]. exact (conn_prim _ _ _ _ _ _ E).
  - apply accept_prim.
  - unfold pb_send. destruct (publish_outgoing _ _ _); [|intros [= <- <-]; apply Kpuberr].
    destruct (pb_closed s) eqn:C; intros [= <- <-]; [apply Knop|]. rewrite <- C. exact (Kpublish s _ C).
  - unfold pb_send. destruct (try_publish_outgoing _ _ _); [|intros [= <- <-]; apply Kpuberr].
    destruct (pb_closed s) eqn:C; intros [= <- <-]; [apply Knop|]. rewrite <- C. exact (Kpublish s _ C).
  - destruct (pb_closed s) eqn:C; intros [= <- <-]; [apply Knop|now apply Kclose].
Qed.

Lemma run_app evs1 : forall evs2 s, run s (evs1 ++ evs2) = let (s1, o1) := run s evs1 in let (s2, o2) := run s1 evs2 in (s2, o1 ++ o2).
Proof using.
  induction evs1 as [|ev evs1 IH]; intros evs2 s; cbn [app pb_run]; [destruct (run s evs2); reflexivity|].
  destruct (act s ev) as [s1 o1]. rewrite IH. destruct (run s1 evs1) as [s2 o2]. destruct (run s2 evs2) as [s3 o3]. now rewrite app_assoc.
Qed.

Lemma run_inv_gen (I : list qout -> pb -> Prop) :
  (forall L s o s', I L s -> qprim s o s' -> I (L ++ o) s') ->
  forall evs L s s' o, I L s -> run s evs = (s', o) -> I (L ++ o) s'.
Proof using.
  intros St. induction evs as [|ev evs IH]; intros L s s' o HI; cbn [pb_run].
  - intros [= <- <-]. now rewrite app_nil_r.
  - destruct (act s ev) as [s1 o1] eqn:E. destruct (run s1 evs) as [s2 o2] eqn:R. intros [= <- <-].
    rewrite app_assoc. eapply IH; [|exact R]. eapply St; [exact HI|]. now apply act_prim in E.
Qed.
Lemma run_inv (I : list qout -> pb -> Prop) :
  I [] pb_init -> (forall L s o s', I L s -> qprim s o s' -> I (L ++ o) s') ->
  forall evs s L, run pb_init evs = (s, L) -> I L s.
Proof using. intros H0 St evs s L R. exact (run_inv_gen I St evs [] pb_init s L H0 R). Qed.

(** ** Polls are runs *)
Lemma run_one s ev s' o : act s ev = (s', o) -> run s [ev] = (s', o).
Proof using. intros H. cbn [pb_run]. rewrite H. now rewrite app_nil_r. Qed.
Lemma run_trans s e1 s1 o1 e2 s2 o2 : run s e1 = (s1, o1) -> run s1 e2 = (s2, o2) -> run s (e1 ++ e2) = (s2, o1 ++ o2).
Proof using. intros H1 H2. now rewrite run_app, H1, H2. Qed.

Lemma sn_poll_run cid : forall es s s' o r, sn_poll buf cid es s = (s', o, r) ->
  exists n, run s (map (WSession cid) (firstn n es)) = (s', o).
Proof using.
  induction es as [|e es IH]; intros s s' o r; cbn [sn_poll].
  - intros [= <- <- <-]. exists 0%nat. reflexivity.
  - destruct (pb_session buf cid e s) as [[s1 o1] r1] eqn:E.
    assert (A : run s [WSession cid e] = (s1, o1)) by (apply run_one; cbn [pb_act]; now rewrite E).
    destruct r1 as [[| | |]|].
    2-5: intros [= <- <- <-]; exists 1%nat; exact A.
    destruct (sn_poll buf cid es s1) as [[s2 o2] r2] eqn:R. intros [= <- <- <-].
    destruct (IH _ _ _ _ R) as (n & Hn). exists (S n). cbn [firstn map].
    exact (run_trans s [WSession cid e] s1 o1 _ s2 o2 A Hn).
Qed.

Lemma pb_iter_run d s s' o c : pb_iter max auth d s = (s', o, c) -> exists evs, run s evs = (s', o).
Proof using.
  unfold pb_iter.
  destruct (match b_auth d with Some (k, i, b) => pb_auth auth k i b s | None => (s, [], false) end) as [[s1 o1] c1] eqn:E1.
  assert (R1 : exists evs, run s evs = (s1, o1)).
  { destruct (b_auth d) as [[[k i] b]|]; [exists [WAuth k i b]; apply run_one; cbn [pb_act]; now rewrite E1|].
    exists []. injection E1 as <- <- <-. reflexivity. }
  destruct R1 as [e1 R1].
  destruct c1; [intros [= <- <- <-]; eauto|].
  destruct (match b_conn d with Some (k, r) => pb_conn auth k r s1 | None => (s1, [], false) end) as [[s2 o2] c2] eqn:E2.
  assert (R2 : exists evs, run s1 evs = (s2, o2)).
  { destruct (b_conn d) as [[k r]|]; [exists [WConn k r]; apply run_one; cbn [pb_act]; now rewrite E2|].
    exists []. injection E2 as <- <- <-. reflexivity. }
  destruct R2 as [e2 R2]. pose proof (run_trans _ _ _ _ _ _ _ R1 R2) as R12.
  destruct c2; [intros [= <- <- <-]; eauto|].
  destruct (b_accept d).
  - destruct (pb_accept max s2) as [s3 o3] eqn:E3. intros [= <- <- <-].
    exists ((e1 ++ e2) ++ [WAccept]). rewrite app_assoc. eapply run_trans; [exact R12|]. apply run_one. exact E3.
  - intros [= <- <- <-]. eauto.
Qed.

Lemma pb_poll_run : forall ds s s' o b, pb_poll max auth ds s = (s', o, b) -> exists evs, run s evs = (s', o).
Proof using.
  induction ds as [|d ds IH]; intros s s' o b; cbn [pb_poll].
  - intros [= <- <- <-]. now exists [].
  - destruct (pb_iter max auth d s) as [[s1 o1] c1] eqn:E. destruct (pb_iter_run _ _ _ _ _ E) as [e1 R1].
    destruct c1; [|intros [= <- <- <-]; eauto].
    destruct (pb_poll max auth ds s1) as [[s2 o2] r] eqn:P. intros [= <- <- <-].
    destruct (IH _ _ _ _ P) as [e2 R2]. exists (e1 ++ e2). eapply run_trans; eauto.
Qed.
End P.
