(** C90: no work waits for ever behind other work. *)
From Coq Require Import List NArith Permutation.
From Verif Require Import Model.Base Model.Map Model.Stats Model.Backoff Model.Framed Model.WireReqRep Model.WirePubSub Model.WireAuth Model.Compression Model.Trie Model.Handshake Model.ReqDriver Model.RepDriver Model.PubDriver Model.JoinMap Model.SubDriver
  Spec.Wire Spec.Stream Spec.ReqSpec Spec.RepSpec Spec.PubSpec Spec.SubSpec Spec.WaitSpec.
Import ListNotations.
Open Scope N_scope.
(*HEADEND*)
From Coq Require Import ZArith ZifyBool ZifyNat ZifyN Bool Lia.
From Verif Require Import Proofs.BaseP Proofs.MapP Proofs.RepDriverP Proofs.RepDriverP2 Proofs.RepDriverP5 Proofs.T_Rep Proofs.PubDriverP Proofs.PubDriverP2 Proofs.PubDriverP4 Proofs.T_Pub Proofs.ReqDriverP Proofs.T_Req2.
Local Open Scope N_scope.

(** ** Request socket *)
Lemma work_iter o co D e s s' os c : link_up e -> rd_done s = false -> rd_conn s = RActive -> rd_dropped s = false -> rd_iter o co D e s = (s', os, c) ->
  rd_done s' = false /\ rd_conn s' = RActive /\ rd_dropped s' = false /\
  ((e_next e <> NxPending /\ rd_egress s' = rd_egress s /\ rd_cmds s' = rd_cmds s /\ ReqSpec.handed os = []) \/
   (e_next e = NxPending /\
    ((exists m, rd_egress s = m :: rd_egress s' /\ rd_cmds s' = rd_cmds s /\ ReqSpec.handed os = [m]) \/
     (exists x p m, rd_egress s = [] /\ rd_egress s' = [m] /\ rd_cmds s = (x, p) :: rd_cmds s' /\ ReqSpec.handed os = []) \/
     (rd_egress s = [] /\ rd_cmds s = [] /\ rd_egress s' = [] /\ rd_cmds s' = [] /\ ReqSpec.handed os = [])))).
Proof.
  intros (T & Nx & Rd & Sd & Rc & Cl) Dn Co Dr I. unfold rd_iter in I.
  assert (Hf : rd_done (rd_do_flush o e s) = rd_done s /\ rd_conn (rd_do_flush o e s) = rd_conn s /\ rd_dropped (rd_do_flush o e s) = rd_dropped s /\ rd_egress (rd_do_flush o e s) = rd_egress s /\ rd_cmds (rd_do_flush o e s) = rd_cmds s).
  { unfold rd_do_flush. destruct (rd_flush s); [|auto]. destruct (match ro_flush_interval o with Some _ => _ | None => _ end); [|auto]. destruct (rd_conn s) eqn:Ec; [destruct (e_flush_ok e)|]; cbn; auto. }
  destruct Hf as (F1 & F2 & F3 & F4 & F5). set (s0 := rd_do_flush o e s) in *. clearbody s0. unfold rd_do_task in I. rewrite T in I.
  replace (if rd_task s0 then (s0, []) else (s0, [])) with (s0, @nil out) in I by (destruct (rd_task s0); reflexivity).
  rewrite F2, Co in I. unfold rd_do_active in I.
  destruct Nx as [Nx|(m & Nx)]; rewrite Nx in *.
  - rewrite Rd in I. destruct (rd_egress s0) as [|m q] eqn:Eg.
    + pose proof (ticks_keep o (e_ticks e) (e_now e) s0) as (K1 & K2 & K3 & K4 & K5).
      assert (Kd : rd_dropped (fst (rd_ticks o (e_ticks e) (e_now e) s0)) = rd_dropped s0 /\ ReqSpec.handed (snd (rd_ticks o (e_ticks e) (e_now e) s0)) = []).
      { clear. generalize (e_ticks e) as n, s0 as s. induction n as [|n IH]; intros s; cbn [rd_ticks]; [auto|]. unfold rd_check_timeouts.
        pose proof (accepted_silent_timeouts (timed_out_ids o (e_now e) (rd_pending s)) (rd_pending s)) as (_ & Rm & _).
        destruct (remove_timed_out _ _) as [p' os']. cbn [snd] in Rm. match goal with |- context [rd_ticks o n (e_now e) ?x] => specialize (IH x); destruct (rd_ticks o n (e_now e) x) as [s2 o2] end.
        cbn [fst snd rd_dropped] in *. destruct IH as (I1 & I2). split; [exact I1|]. change (ReqSpec.handed ((CheckedTimeouts (e_now e) :: os') ++ o2)) with (ReqSpec.handed (os' ++ o2)). rewrite handed_app, Rm, I2. reflexivity. }
      destruct Kd as (K6 & K7). destruct (rd_ticks o (e_ticks e) (e_now e) s0) as [s1 o1]. cbn [fst snd] in *.
      unfold rd_do_command in I. rewrite Rc, K2, F5 in I. destruct (rd_cmds s) as [|[x p] rest] eqn:Ecm.
      * rewrite K6, F3, Dr in I. inversion I; subst. cbn [app]. rewrite app_nil_r. split; [congruence|]. split; [congruence|]. split; [congruence|].
        right. split; [reflexivity|]. right; right. repeat split; congruence.
      * destruct (rd_on_command o co (e_now e) s1 rest x p) as [s2 o2] eqn:Oc. inversion I; subst s' os c. unfold rd_on_command in Oc. inversion Oc; subst s2 o2. clear Oc.
        cbn [rd_done rd_conn rd_dropped rd_egress rd_cmds]. split; [congruence|]. split; [congruence|]. split; [congruence|]. right. split; [reflexivity|]. right; left.
        eexists x, p, _. rewrite K3, Eg. split; [congruence|]. split; [reflexivity|]. split; [congruence|].
        cbn [app]. rewrite handed_app, K7. cbn [app]. destruct (mget _ _) as [[? ?]|]; reflexivity.
    + rewrite Sd in I. inversion I; subst. cbn [rd_done rd_conn rd_dropped rd_egress rd_cmds]. split; [congruence|]. split; [congruence|]. split; [congruence|].
      right. split; [reflexivity|]. left. exists m. repeat split; congruence.
  - unfold rd_on_message in I. destruct (mget _ _) as [[st cc]|]; [destruct (try_decompress _ _ _)|]; inversion I; subst; cbn [rd_done rd_conn rd_dropped rd_egress rd_cmds];
      (split; [congruence|]; split; [congruence|]; split; [congruence|]; left; split; [discriminate|]; repeat split; congruence).
Qed.

Lemma turn_run o co D evs : forall s s2 L2 d, rd_done s = false -> rd_conn s = RActive -> rd_dropped s = false -> ~ In EDrop evs -> Forall link_up (iters evs) ->
  rd_run o co D s evs = (s2, L2) -> (d <= length (rd_egress s) + length (rd_cmds s))%nat -> (d + (d - length (rd_egress s)) <= quiet_iters (iters evs))%nat ->
  (d <= length (ReqSpec.handed L2))%nat.
Proof.
  induction evs as [|ev evs IH]; intros s s2 L2 d Dn Co Dr Nd Up R Le Q.
  { cbn in Q. lia. }
  cbn [rd_run] in R. destruct (rd_step o co D s ev) as [s1 o1] eqn:St. destruct (rd_run o co D s1 evs) as [s3 o3] eqn:R3. inversion R; subst s3 L2. clear R.
  rewrite handed_app, app_length. destruct ev as [c p| |e].
  - cbn [rd_step] in St. rewrite Dn, Dr in St. cbn [orb] in St. inversion St; subst s1 o1. cbn [ReqSpec.handed flat_map length Nat.add].
    refine (IH _ _ _ d _ _ _ _ _ R3 _ _); cbn [rd_done rd_conn rd_dropped rd_egress rd_cmds]; auto.
    + intros H; apply Nd; now right.
    + rewrite app_length. lia.
  - exfalso. apply Nd. now left.
  - cbn [rd_step] in St. rewrite Dn in St. destruct (rd_iter o co D e s) as [[s1' o1'] c] eqn:It. inversion St; subst s1' o1'. clear St.
    cbn [iters flat_map app] in Up. inversion Up as [|? ? Ue Up']; subst. assert (Nd' : ~ In EDrop evs) by (intros H; apply Nd; now right).
    unfold quiet_iters in Q. cbn [iters flat_map app filter] in Q. fold (iters evs) in Q.
    destruct (work_iter o co D e s s1 o1 c Ue Dn Co Dr It) as (D1 & C1 & H1 & [(Nx & E1 & M1 & T1)|(Nx & [(m & E1 & M1 & T1)|[(x & p & m & E0 & E1 & M1 & T1)|(E0 & M0 & E1 & M1 & T1)]])]); rewrite T1; cbn [length Nat.add].
    + apply (IH s1 s2 o3 d D1 C1 H1 Nd' Up' R3); rewrite E1, ?M1; [lia|]. destruct (e_next e); [exact Q|exact Q|exact Q|congruence].
    + destruct d as [|d]; [lia|]. apply le_n_S. rewrite Nx in Q. cbn [length] in Q. rewrite E1 in Le, Q. cbn [length] in Le, Q. unfold quiet_iters in *. apply (IH s1 s2 o3 d D1 C1 H1 Nd' Up' R3); rewrite ?M1; unfold quiet_iters; lia.
    + destruct d as [|d]; [lia|]. rewrite Nx in Q. cbn [length] in Q. rewrite E0, M1 in *. cbn [length] in Le, Q. apply (IH s1 s2 o3 (S d) D1 C1 H1 Nd' Up' R3); rewrite E1; unfold quiet_iters; cbn [length]; lia.
    + rewrite E0, M0 in Le. cbn in Le. lia.
Qed.

(*@prop C90 (request socket, what holds): while the connection works, a call waits for at most two turns of the task per call made before it and not yet written - plus one turn for each message the server sends meanwhile -
    whatever further calls are made: the frame written for it is then the one numbered [k] on the wire. *)
Lemma C90_request_turn_partial_pf :
  forall o co D evs evs2 s log s2 log2 k c payload,
  rd_run o co D rd_init evs = (s, log) -> rd_run o co D s evs2 = (s2, log2) ->
  rd_done s = false -> rd_conn s = RActive -> ~ In EDrop (evs ++ evs2) -> Forall link_up (iters evs2) ->
  nth_error (issued evs) k = Some (c, payload) ->
  (2 * (k + 1) <= 2 * length (ReqSpec.handed log) + quiet_iters (iters evs2))%nat ->
  nth_error (ReqSpec.handed (log ++ log2)) k = Some (req_into_wire (N.of_nat k mod 2 ^ 32) (req_outgoing (ro_min_compress o) co payload)).
Proof.
  intros o co D evs evs2 s L s2 L2 k c p R R2 Dn Co Nd Up Nk Q.
  assert (Dr : rd_dropped s = false).
  { assert (K : forall evs s s' L, ~ In EDrop evs -> rd_dropped s = false -> rd_run o co D s evs = (s', L) -> rd_dropped s' = false).
    { clear. induction evs as [|ev evs IH]; intros s s' L Nd Dr R; cbn [rd_run] in R; [inversion R; subst; exact Dr|].
      destruct (rd_step o co D s ev) as [s1 o1] eqn:St. destruct (rd_run o co D s1 evs) as [s3 o3] eqn:R3. inversion R; subst. apply (IH s1 _ _ ltac:(intros H; apply Nd; now right)) with (2 := R3). clear IH R3 R.
      destruct ev as [c p| |e]; cbn [rd_step] in St.
      - destruct (rd_done s || rd_dropped s); inversion St; subst; exact Dr.
      - exfalso. apply Nd. now left.
      - destruct (rd_done s); [inversion St; subst; exact Dr|]. destruct (rd_iter o co D e s) as [[s1' o1'] c] eqn:It. inversion St; subst. apply iter_prims in It. clear St Nd.
        clear s'. induction It as [|s1 os1 s2 os2 s3 P _ IH]; [exact Dr|]. apply IH. clear IH. destruct P as [s s' os Hc Hs|s m Hn|s|s s' m q ok Hq Hc|s x p rest Hc|s].
        + apply core_fields in Hc. destruct Hc as (_ & _ & _ & _ & _ & _ & _ & Hc & _). congruence.
        + unfold rd_on_message. destruct (mget _ _) as [[? ?]|]; [destruct (try_decompress _ _ _)|]; exact Dr.
        + unfold rd_check_timeouts. destruct (remove_timed_out _ _). exact Dr.
        + apply core_eq in Hc. destruct Hc as (_ & _ & _ & _ & _ & _ & _ & Hc & _). congruence.
        + exact Dr.
        + exact Dr. }
    apply (K evs rd_init s L); auto. intros H; apply Nd, in_or_app; now left. }
  destruct (run_order o co D evs s L R) as (acc & rest & E & (O1 & O2 & O3 & O4) & Rs). specialize (Rs Dn Dr). subst rest. rewrite app_nil_r in E.
  assert (Rw : rd_run o co D rd_init (evs ++ evs2) = (s2, L ++ L2)) by (rewrite run_app, R, R2; reflexivity).
  destruct (run_order o co D _ _ _ Rw) as (acc2 & rest2 & E2 & (P1 & P2 & P3 & P4) & _).
  assert (Kh : (k < length (ReqSpec.handed (L ++ L2)))%nat).
  { rewrite handed_app, app_length. assert (Lk : (k < length (issued evs))%nat) by (apply nth_error_Some; congruence). rewrite E, app_length in Lk.
    pose proof (f_equal (@length _) O3) as Le. rewrite app_length, map_length in Le. pose proof (f_equal (@length _) O1) as La. rewrite !map_length in La.
    destruct (le_lt_dec (length (ReqSpec.handed L)) k) as [H|H]; [|lia].
    assert (G : (k + 1 - length (ReqSpec.handed L) <= length (ReqSpec.handed L2))%nat).
    { apply (turn_run o co D evs2 s s2 L2); auto; [intros X; apply Nd, in_or_app; now right|lia|lia]. }
    lia. }
  assert (G : nth_error (map snd (ReqSpec.accepted (L ++ L2))) k = nth_error (ReqSpec.handed (L ++ L2)) k) by (rewrite <- P3, nth_error_app1 by exact Kh; reflexivity).
  rewrite <- G, P2.
  assert (Kp : nth_error (map snd acc2) k = Some p).
  { assert (Ka : (k < length acc2)%nat). { pose proof (f_equal (@length _) P1) as La. rewrite !map_length in La. pose proof (f_equal (@length _) P3) as Lb. rewrite app_length, map_length in Lb. lia. }
    assert (X : nth_error (issued (evs ++ evs2)) k = Some (c, p)) by (rewrite issued_app, nth_error_app1; [exact Nk|apply nth_error_Some; congruence]).
    rewrite E2, nth_error_app1 in X by exact Ka. rewrite nth_error_map, X. reflexivity. }
  clear - Kp. enough (H : forall ps i k, nth_error ps k = Some p -> nth_error (frames_from o co i ps) k = Some (frame_of o co (i + N.of_nat k) p)) by (rewrite (H _ 0 _ Kp); reflexivity).
  clear. induction ps as [|x ps IH]; intros i k H; destruct k as [|k]; cbn in H; try discriminate.
  - inversion H; subst. cbn [frames_from nth_error]. rewrite N.add_0_r. reflexivity.
  - cbn [frames_from nth_error]. rewrite (IH _ _ H). do 2 f_equal. lia.
Qed.

(** ** Reply socket *)
Ltac rprims P := destruct P as [s0 a p G O|s0 a p m q ok G O Eg|s0 a p r id x m G O Ip Os Ro|s0 a p r id x G O Ip Os Ro|s0 a p r id G O Ip Ow Os|s0 a p G O|s0 a p m G O|s0 a p G O|
    s0 k cid addr au input send_ok id w rest Nt Ea As|s0 k cid addr au input send_ok w rest Nt Ea As|s0 k cid addr au input send_ok w rest Nt Ea As|s0 k cid Nt|s0 k cid addr Nt Ea|s0 k cid addr Nt Ea|s0|s0 Hm|
    s0 q rest Ch|s0 rid x Hh Hr|s0 rid x Hh Hr|s0 rid Hh|s0].
Definition nd_pending (s : rp) : Prop := forall a p, mget a (rp_peers s) = Some p -> NoDup (map fst (pr_pending p)).

Lemma nodup_app {A} (l m : list A) : NoDup l -> NoDup m -> (forall x, In x l -> In x m -> False) -> NoDup (l ++ m).
Proof.
  induction l as [|x l IH]; intros Hl Hm H; [exact Hm|]. inversion Hl; subst. cbn [app]. constructor.
  - rewrite in_app_iff. intros [X|X]; [contradiction|apply (H x); [now left|exact X]].
  - apply IH; auto. intros y Y1 Y2. apply (H y); [now right|exact Y2].
Qed.
Lemma nodup_filter_fst {B} (f : N * B -> bool) l : NoDup (map fst l) -> NoDup (map fst (filter f l)).
Proof.
  induction l as [|[r b] l IH]; cbn [filter map fst]; intros H; [constructor|]. inversion H as [|? ? H1 H2]; subst. destruct (f (r, b)); cbn [map fst]; [|auto]. constructor; [|auto].
  intros X. apply H1. apply in_map_iff in X. destruct X as (y & E & Y). apply filter_In in Y. apply in_map_iff. exists y. tauto.
Qed.
Lemma nd_set s a p : nd_pending s -> NoDup (map fst (pr_pending p)) -> forall a' p', mget a' (mset a p (rp_peers s)) = Some p' -> NoDup (map fst (pr_pending p')).
Proof. intros I H a' p' G. rewrite mget_set in G. destruct (eq_dec a' a); [inversion G; subst; exact H|exact (I _ _ G)]. Qed.

Section R.
Variables (max : option N) (min : N) (auth : option (bytes -> bool)) (co : option compressor) (D : decompressors).
Notation act := (rp_act max min auth co D).
Notation run := (rp_run max min auth co D).

Lemma nd_prim L s o s' : reqs L s -> nd_pending s -> RepDriverP.prim max min auth co D s o s' -> nd_pending s'.
Proof.
  intros Q I P. rprims P; try exact I.
  - refine (nd_set _ _ _ I _). exact (I _ _ G).
  - refine (nd_set _ _ _ I _). exact (I _ _ G).
  - refine (nd_set _ _ _ I _). apply nodup_filter_fst, (I _ _ G).
  - refine (nd_set _ _ _ I _). apply nodup_filter_fst, (I _ _ G).
  - refine (nd_set _ _ _ I _). apply nodup_filter_fst, (I _ _ G).
  - refine (nd_set _ _ _ I _). constructor.
  - pose proof (RepDriverP.on_request_frame D (RepDriverP.upd s0 a (mkPeer (pr_cid p) (pr_pending p ++ [(rp_next_rid s0, rr_id m)]) (pr_egress p) (pr_flush p) true)) a (pr_cid p) m) as F. cbv zeta in F.
    destruct F as (_ & _ & _ & F & _). unfold nd_pending. rewrite F. refine (nd_set _ _ _ I _). cbn [pr_pending]. rewrite map_app. cbn [map fst].
    apply nodup_app; [exact (I _ _ G)|constructor; [intros []|constructor]|].
    intros r H [<-|[]]. apply in_map_iff in H. destruct H as ([r' id] & E & H). cbn in E. subst r'. destruct Q as (Q1 & _ & _ & Q4). destruct (Q4 _ _ _ _ G H) as (m' & X & _). apply Q1 in X. lia.
  - intros a' p' H. cbn [rp_with_peers rp_peers] in H. rewrite mget_del in H. destruct (eq_dec a' a); [discriminate|exact (I _ _ H)].
  - unfold nd_pending. cbn. refine (nd_set s0 _ _ I _). constructor.
  - unfold nd_pending. cbn. refine (nd_set s0 _ _ I _). constructor.
Qed.
Lemma run_nd evs s L : run rp_init evs = (s, L) -> nd_pending s.
Proof.
  intros R. apply (RepDriverP.run_inv max min auth co D (fun L s => reqs L s /\ nd_pending s)) with (3 := R).
  - intros L0 s0 o s1 (Q & I) P. split; [eapply reqs_prim; eauto|eapply nd_prim; eauto].
  - split; [|intros a p H; discriminate H]. destruct (run_inv2 max min auth co D [] rp_init [] eq_refl) as (_ & Q & _). exact Q.
Qed.

(** Turns needed for everything waiting at a peer. *)
Definition wk (p : peer) : nat := (length (pr_egress p) + 2 * length (pr_pending p))%nat.
Lemma unpend_shorter r id l : In (r, id) l -> (length (unpend r l) < length l)%nat.
Proof.
  unfold unpend. induction l as [|[r' i'] l IH]; cbn [In filter fst negb]; [intros []|]. intros [H|H].
  - inversion H; subst. rewrite N.eqb_refl. cbn [negb length]. enough (length (filter (fun e : N * N => negb (N.eqb (fst e) r)) l) <= length l)%nat by lia.
    clear. induction l as [|x l IH]; cbn [filter length]; [lia|]. destruct (negb _); cbn [length]; lia.
  - specialize (IH H). destruct (r' =? r); cbn [negb length]; lia.
Qed.
(** What is served: a frame is queued, or some request is answered or dropped. *)
Definition busy (os : list (N * os_state)) (p : peer) : Prop := pr_egress p <> [] \/ exists r id, In (r, id) (pr_pending p) /\ os_done os (r, id) = true.

Lemma pick_some pref os l r id : pref <> None -> In (r, id) l -> os_done os (r, id) = true -> pick pref os l <> None.
Proof.
  intros Pn H Od. unfold pick. destruct pref as [k|]; [|congruence]. destruct (find _ _); [discriminate|]. assert (X : In (r, id) (filter (os_done os) l)) by (apply filter_In; auto). destruct (filter _ l); [destruct X|discriminate].
Qed.
Lemma reqs_one cid a r m y : (length (requests_on cid [RIncoming cid a r m; y]) = 1 + length (requests_on cid [y]))%nat.
Proof. unfold requests_on. cbn [flat_map]. destruct (eq_dec cid cid) as [_|X]; [|congruence]. reflexivity. Qed.
Lemma requests_app c a b : requests_on c (a ++ b) = requests_on c a ++ requests_on c b.
Proof. apply flat_map_app. Qed.

(** One turn. *)
Lemma rep_turn s e addr p s' o st : mget addr (rp_peers s) = Some p -> pr_open p = true -> p_ready e = true -> p_send e = true ->
  rp_peer min co D addr e s = (s', o, st) ->
  In (pr_cid p) (ended o) \/
  exists p', mget addr (rp_peers s') = Some p' /\ pr_open p' = true /\ pr_cid p' = pr_cid p /\
    (wk p' + (if pr_egress p then if pick (p_pref e) (rp_os s) (pr_pending p) then 1 else 0 else 1) <= wk p + 2 * length (requests_on (pr_cid p) o))%nat /\
    ((exists m, p_next e = NxMsg m) -> (wk p' + 1 <= wk p)%nat \/ requests_on (pr_cid p) o <> []).
Proof.
  intros G O Rd Sd St. rewrite RepDriverP.rp_peer_eq, G, O in St. unfold peer_iter in St.
  set (p0 := if pr_flush p && p_flush_ok e then mkPeer (pr_cid p) (pr_pending p) (pr_egress p) false (pr_open p) else p) in *.
  assert (P0 : pr_cid p0 = pr_cid p /\ pr_pending p0 = pr_pending p /\ pr_egress p0 = pr_egress p /\ pr_open p0 = true) by (unfold p0; destruct (pr_flush p && p_flush_ok e); auto).
  clearbody p0. destruct P0 as (Pc & Pp & Pe & Po). rewrite Rd, Sd, Pp, Pe, Pc, Po in St.
  destruct (pr_egress p) as [|m q] eqn:Eg.
  2:{ cbn [RepDriverP.peer_handle] in St. inversion St; subst s' o st. right. eexists. cbn [rp_peers with_stats RepDriverP.upd rp_with_peers]. rewrite mget_set_eq. split; [reflexivity|].
      cbn [pr_open pr_cid]. split; [reflexivity|]. split; [reflexivity|]. unfold wk. rewrite Eg. cbn [pr_egress pr_pending requests_on flat_map length]. split; [lia|]. intros _. left. lia. }
  assert (K : forall p1 (w : nat), pr_open p1 = true -> pr_cid p1 = pr_cid p -> pr_egress p1 = [] -> (wk p1 + w <= wk p)%nat -> (w <= 1)%nat ->
    RepDriverP.peer_handle D addr s p (RepDriverP.peer_next e (rp_next_rid s) p1 (rp_tx s) (rp_failed s)) = (s', o, st) ->
    In (pr_cid p) (ended o) \/ exists p', mget addr (rp_peers s') = Some p' /\ pr_open p' = true /\ pr_cid p' = pr_cid p /\ (wk p' + w <= wk p + 2 * length (requests_on (pr_cid p) o))%nat /\
    ((exists m, p_next e = NxMsg m) -> (wk p' + 1 <= wk p)%nat \/ requests_on (pr_cid p) o <> [])).
  { clear St. intros p1 w O1 C1 E1 W1 w1 H. unfold RepDriverP.peer_next in H. destruct (p_next e) as [m| | |]; cbn [RepDriverP.peer_handle] in H.
    - right. match type of H with context [rp_on_request D ?x addr (pr_cid p) m] => pose proof (RepDriverP.on_request_frame D x addr (pr_cid p) m) as F; cbv zeta in F; destruct (rp_on_request D x addr (pr_cid p) m) as [s2 o2] end.
      inversion H; subst s2 o st. cbn [fst snd app] in *. destruct F as (_ & _ & _ & Fp & _ & _ & _ & _ & _ & _ & F). eexists. rewrite Fp. cbn [rp_peers with_stats RepDriverP.upd rp_with_peers]. rewrite mget_set_eq. split; [reflexivity|].
      cbn [pr_open pr_cid]. split; [exact O1|]. split; [exact C1|]. unfold wk in *. rewrite E1 in W1. cbn [pr_egress pr_pending length] in *. rewrite E1, app_length. cbn [length].
      destruct F as [(qq & F & _)|(F & _)]; rewrite F, reqs_one; (split; [lia|]; intros _; right; intros X; pose proof (f_equal (@length _) X) as Y; rewrite reqs_one in Y; cbn in Y; lia).
    - right. inversion H; subst s' o st. eexists. cbn [rp_peers with_stats RepDriverP.upd rp_with_peers]. rewrite mget_set_eq. split; [reflexivity|]. split; [exact O1|]. split; [exact C1|]. split; [lia|]. intros (m & X). discriminate.
    - left. inversion H; subst. cbn [ended flat_map app]. now left.
    - right. inversion H; subst s' o st. eexists. cbn [rp_peers with_stats RepDriverP.upd rp_with_peers]. rewrite mget_set_eq. split; [reflexivity|]. split; [exact O1|]. split; [exact C1|]. split; [lia|]. intros (m & X). discriminate. }
  destruct (pick (p_pref e) (rp_os s) (pr_pending p)) as [[r id]|] eqn:Pk.
  - apply RepDriverP.pick_in in Pk. destruct Pk as [Ip Od]. pose proof (unpend_shorter _ _ _ Ip) as Sh.
    assert (Dr : RepDriverP.peer_handle D addr s p (RepDriverP.peer_next e (rp_next_rid s) (mkPeer (pr_cid p) (unpend r (pr_pending p)) [] (pr_flush p0) true) (rp_tx s) (rp_failed s)) = (s', o, st) ->
      In (pr_cid p) (ended o) \/ exists p', mget addr (rp_peers s') = Some p' /\ pr_open p' = true /\ pr_cid p' = pr_cid p /\ (wk p' + 1 <= wk p + 2 * length (requests_on (pr_cid p) o))%nat /\
      ((exists m, p_next e = NxMsg m) -> (wk p' + 1 <= wk p)%nat \/ requests_on (pr_cid p) o <> [])).
    { apply K; auto. unfold wk. rewrite Eg. cbn [pr_egress pr_pending length]. lia. }
    destruct (mget r (rp_os s)) as [[|x|]|] eqn:Os.
    + exfalso. unfold os_done in Od. cbn [fst] in Od. rewrite Os in Od. discriminate.
    + clear Dr K. destruct (rep_outgoing min co id x) as [m|]; cbn [RepDriverP.peer_handle] in St; inversion St; subst s' o st; right; eexists; cbn [rp_peers with_stats RepDriverP.upd rp_with_peers];
        rewrite mget_set_eq; (split; [reflexivity|]); cbn [pr_open pr_cid]; (split; [reflexivity|]); (split; [reflexivity|]); unfold wk; rewrite Eg; cbn [app pr_egress pr_pending requests_on flat_map length]; (split; [lia|]; intros _; left; lia).
    + apply Dr. exact St.
    + apply Dr. exact St.
  - apply (K p0 0%nat); auto; [unfold wk; rewrite Pe, Pp, Eg; lia|].
    unfold RepDriverP.peer_next. rewrite Pc, Pp, Pe, Po. rewrite Pc, Pp, Pe, Po in St || idtac. exact St.
Qed.

Lemma rep_other s ev s' o addr p : mget addr (rp_peers s) = Some p -> pr_open p = true -> (forall e, ev <> VPeer addr e) -> act s ev = (s', o) ->
  In (pr_cid p) (ended o) \/ mget addr (rp_peers s') = Some p.
Proof.
  intros G O Ne A.
  assert (Ins : forall s1 c a, rp_peers s1 = rp_peers s -> In (pr_cid p) (ended (snd (rp_insert s1 c a))) \/ mget addr (rp_peers (fst (rp_insert s1 c a))) = Some p).
  { intros s1 c a E. unfold rp_insert. cbn [fst snd rp_with_peers rp_peers]. rewrite E, mget_set. destruct (eq_dec addr a) as [<-|N]; [left|right; exact G]. rewrite G, O. cbn. now left. }
  destruct ev as [a e|k i b|k r| | |rid x|rid|]; cbn [rp_act] in A.
  - assert (Na : a <> addr) by (intros ->; exact (Ne e eq_refl)). right. destruct (rp_peer min co D a e s) as [[s1 o1] st] eqn:P. inversion A; subst s1 o1. clear A.
    rewrite RepDriverP.rp_peer_eq in P. destruct (mget a (rp_peers s)) as [q|]; [|inversion P; subst; exact G]. destruct (pr_open q); [|inversion P; subst; cbn [rp_with_peers rp_peers]; rewrite mget_del_ne by congruence; exact G].
    unfold RepDriverP.peer_handle in P. destruct (peer_iter _ _ _ _ _ _ _ _) as [[[[q' tx] fl] oo] r]. destruct r.
    + inversion P; subst. cbn. rewrite mget_set_ne by congruence. exact G.
    + match type of P with context [rp_on_request D ?x a (pr_cid q) m] => pose proof (RepDriverP.on_request_frame D x a (pr_cid q) m) as F; cbv zeta in F; destruct (rp_on_request D x a (pr_cid q) m) as [s2 o2] end.
      inversion P; subst. cbn [fst snd] in F. destruct F as (_ & _ & _ & F & _). rewrite F. cbn. rewrite mget_set_ne by congruence. exact G.
    + inversion P; subst. cbn. rewrite mget_set_ne by congruence. exact G.
    + inversion P; subst. cbn. rewrite mget_set_ne by congruence. exact G.
    + inversion P; subst. cbn. rewrite mget_set_ne by congruence. exact G.
  - destruct (rp_auth auth k i b s) as [[s1 o1] c] eqn:P. inversion A; subst s1 o1. clear A. unfold rp_auth in P. destruct (nth_error (rp_auths s) k) as [[c0 a0]|]; [|inversion P; subst; auto].
    destruct auth as [au|]; [|inversion P; subst; auto]. destruct (auth_server au b i) as [[r w] rest]. destruct r.
    + match type of P with context [rp_insert ?x c0 a0] => pose proof (Ins x c0 a0 eq_refl) as X; destruct (rp_insert x c0 a0) as [s2 o2] end. inversion P; subst. cbn [fst snd] in X.
      destruct X as [X|X]; [left|right; exact X]. cbn [app ended flat_map]. exact X.
    + inversion P; subst. right. exact G.
    + inversion P; subst. right. exact G.
    + inversion P; subst. right. exact G.
  - destruct (rp_conn auth k r s) as [[s1 o1] c] eqn:P. inversion A; subst s1 o1. clear A. unfold rp_conn in P. destruct (nth_error (rp_conns s) k) as [c0|]; [|inversion P; subst; auto].
    destruct r as [[a0|]|]; [|inversion P; subst; right; exact G|inversion P; subst; right; exact G]. destruct auth as [au|]; [inversion P; subst; right; exact G|].
    match type of P with context [rp_insert ?x c0 a0] => pose proof (Ins x c0 a0 eq_refl) as X; destruct (rp_insert x c0 a0) as [s2 o2] end. inversion P; subst. exact X.
  - right. unfold rp_accept in A. destruct (match max with Some m => _ | None => _ end); inversion A; subst; exact G.
  - right. destruct (rp_chan s); inversion A; subst; exact G.
  - right. destruct (smem rid (rp_held s)); [destruct (os_receiver s rid)|]; inversion A; subst; exact G.
  - right. destruct (smem rid (rp_held s)); inversion A; subst; exact G.
  - right. inversion A; subst. exact G.
Qed.

Lemma rep_budget evs s L addr p : run rp_init evs = (s, L) -> mget addr (rp_peers s) = Some p -> pr_open p = true ->
  (wk p + 2 * length (handed_on (pr_cid p) L) <= 2 * length (requests_on (pr_cid p) L))%nat.
Proof.
  intros R G O. destruct (run_inv2 max min auth co D evs s L R) as (I & Q & A & F & T). pose proof (run_nd evs s L R) as Nd.
  destruct F as (F1 & F2 & F3 & F4 & F5 & F6). destruct Q as (Q1 & Q2 & Q3 & Q4).
  assert (Le : (length (map fst (queued_on (pr_cid p) L) ++ map fst (pr_pending p)) <= length (requests_on (pr_cid p) L))%nat).
  { apply NoDup_incl_length.
    - apply nodup_app; [apply queued_on_nodup, F2|exact (Nd _ _ G)|]. intros r X Y. apply in_map_iff in X. destruct X as ([r1 m] & E1 & X). cbn in E1. subst r1. apply queued_in in X.
      apply in_map_iff in Y. destruct Y as ([r2 id] & E2 & Y). cbn in E2. subst r2. apply (F3 _ _ _ _ G Y). unfold queued_rids. apply in_flat_map. exists (RQueued (pr_cid p) r m). split; [exact X|now left].
    - assert (K : forall a r m, In (RIncoming (pr_cid p) a r m) L -> In r (requests_on (pr_cid p) L)).
      { intros a r m X. unfold requests_on. apply in_flat_map. eexists. split; [exact X|]. cbn. destruct (eq_dec (pr_cid p) (pr_cid p)) as [_|Z]; [now left|congruence]. }
      intros r X. apply in_app_or in X. destruct X as [X|X]; apply in_map_iff in X; destruct X as ([r1 z] & E1 & X); cbn in E1; subst r1.
      + apply queued_in in X. destruct (F1 _ _ _ X) as (a & req & x & Y & _). eapply K, Y.
      + destruct (Q4 _ _ _ _ G X) as (m & Y & _). eapply K, Y. }
  specialize (F4 _ _ G O). pose proof (f_equal (@length _) F4) as Lq. rewrite map_length, app_length in Lq. rewrite app_length, !map_length in Le. unfold wk. lia.
Qed.

(** Where a response is. *)
Lemma resp_state evs s L cid addr rid req x : run rp_init evs = (s, L) -> In (RIncoming cid addr rid req) L -> In (RResponded rid x true) L -> compressible co x -> ~ In cid (ended L) ->
  exists p, mget addr (rp_peers s) = Some p /\ pr_open p = true /\ pr_cid p = cid /\
    ((exists m, In m (handed_on cid L) /\ answers co D L cid rid m) \/ busy (rp_os s) p).
Proof.
  intros R Hi Hr Cx Ne. destruct (run_inv2 max min auth co D evs s L R) as (I & Q & A & F & T). pose proof (run_home max min auth co D evs s L R) as Hm.
  destruct (Hm _ _ _ _ Hi) as [E|(p & P1 & P2 & P3)]; [contradiction|]. exists p. split; [exact P1|]. split; [exact P2|]. split; [exact P3|].
  destruct (T _ _ _ _ _ Hr Hi) as [(m & H)|[(H1 & H2)|[H|(p' & H1 & H2 & H3 & H4)]]].
  - destruct F as (F1 & F2 & F3 & F4 & F5 & F6). destruct (F1 _ _ _ H) as (a' & req' & x' & G1 & G2 & G3). specialize (F4 _ _ P1 P2). rewrite P3 in F4.
    pose proof H as H'. apply queued_in, (in_map snd) in H. cbn in H. rewrite F4 in H. apply in_app_or in H. destruct H as [H|H]; [left; exists m; split; [exact H|eapply frame_answers; eauto]|right; left; intros X; rewrite X in H; destruct H].
  - exfalso. unfold rep_outgoing in H2. destruct co as [cm|]; [|discriminate]. specialize (Cx cm eq_refl). destruct (cmp_fun cm x); [discriminate|congruence].
  - contradiction.
  - right. right. rewrite H1 in P1. inversion P1; subst p'. exists rid, (rr_id req). split; [exact H4|]. unfold os_done. cbn [fst]. destruct A as (_ & _ & _ & _ & A5). apply A5 in Hr. rewrite Hr. reflexivity.
Qed.
Lemma answers_app L o cid rid m : answers co D L cid rid m -> answers co D (L ++ o) cid rid m.
Proof. intros (a & req & x & H1 & H2 & H3). exists a, req, x. rewrite !in_app_iff. auto. Qed.

Lemma rep_turns evs2 : forall evs s L s2 L2 cid addr rid req x p, run rp_init evs = (s, L) -> run s evs2 = (s2, L2) ->
  In (RIncoming cid addr rid req) L -> In (RResponded rid x true) L -> compressible co x -> ~ In cid (ended (L ++ L2)) -> takes_frames addr evs2 ->
  mget addr (rp_peers s) = Some p ->
  (exists m, In m (handed_on cid (L ++ L2)) /\ answers co D (L ++ L2) cid rid m) \/
  exists p', mget addr (rp_peers s2) = Some p' /\ pr_open p' = true /\ pr_cid p' = cid /\ busy (rp_os s2) p' /\ (wk p' + peer_turns addr evs2 <= wk p + 2 * length (requests_on cid L2))%nat.
Proof.
  induction evs2 as [|ev evs2 IH]; intros evs s L s2 L2 cid addr rid req x p R R2 Hi Hr Cx Ne Tf G.
  { cbn in R2. inversion R2; subst. rewrite app_nil_r in *. destruct (resp_state _ _ _ _ _ _ _ _ R Hi Hr Cx Ne) as (p' & P1 & P2 & P3 & [X|X]); [left; exact X|right]. rewrite P1 in G. inversion G; subst p'.
    exists p. split; [exact P1|]. split; [exact P2|]. split; [exact P3|]. split; [exact X|]. cbn. lia. }
  cbn [rp_run] in R2. destruct (act s ev) as [s1 o1] eqn:A. destruct (run s1 evs2) as [s3 o3] eqn:R3. inversion R2; subst s3 L2. clear R2.
  assert (Ne1 : ~ In cid (ended L)) by (intros X; apply Ne; rewrite ended_app; apply in_or_app; now left).
  destruct (resp_state _ _ _ _ _ _ _ _ R Hi Hr Cx Ne1) as (p0 & P1 & P2 & P3 & [(m & X & Y)|Bs]).
  { left. exists m. split; [rewrite handed_on_app; apply in_or_app; now left|apply answers_app, Y]. }
  rewrite P1 in G. inversion G; subst p0. clear G.
  assert (R1 : run rp_init (evs ++ [ev]) = (s1, L ++ o1)) by (rewrite RepDriverP.run_app, R; cbn [rp_run]; rewrite A, app_nil_r; reflexivity).
  assert (Ne2 : ~ In cid (ended o1)) by (intros X; apply Ne; rewrite !ended_app, !in_app_iff; auto).
  assert (Stp : exists p1, mget addr (rp_peers s1) = Some p1 /\ (wk p1 + peer_turns addr [ev] <= wk p + 2 * length (requests_on cid o1))%nat).
  { assert (Ot : (forall e, ev <> VPeer addr e) -> exists p1, mget addr (rp_peers s1) = Some p1 /\ (wk p1 + peer_turns addr [ev] <= wk p + 2 * length (requests_on cid o1))%nat).
    { intros N. destruct (rep_other _ _ _ _ _ _ P1 P2 N A) as [X|X]; [rewrite P3 in X; contradiction|]. exists p. split; [exact X|].
      assert (Z : peer_turns addr [ev] = 0%nat); [|rewrite Z; lia]. unfold peer_turns. cbn [filter]. destruct ev as [a e| | | | | | |]; try reflexivity. destruct (N.eqb_spec a addr) as [->|]; [exfalso; exact (N e eq_refl)|reflexivity]. }
    destruct ev as [a e| | | | | | |]; try (apply Ot; intros e' X; discriminate X). destruct (N.eq_dec a addr) as [->|N]; [|apply Ot; intros e' X; inversion X; congruence].
    clear Ot. cbn [rp_act] in A. destruct (rp_peer min co D addr e s) as [[s1' o1'] st] eqn:P. inversion A; subst s1' o1'. destruct (Tf e (or_introl eq_refl)) as (Rd & Sd & Pn).
    destruct (rep_turn _ _ _ _ _ _ _ P1 P2 Rd Sd P) as [X|(p1 & G1 & G2 & G3 & G4 & _)]; [rewrite P3 in X; contradiction|]. exists p1. split; [exact G1|]. rewrite P3 in G4.
    unfold peer_turns. cbn [filter]. rewrite N.eqb_refl. cbn [length].
    destruct (pr_egress p) as [|mm q] eqn:Eg; [|exact G4]. destruct (pick _ _ _) eqn:Pk; [exact G4|exfalso]. destruct Bs as [Bs|(r & id & B1 & B2)]; [congruence|]. eapply pick_some; eauto. }
  destruct Stp as (p1 & G1 & W1).
  destruct (IH (evs ++ [ev]) s1 (L ++ o1) s2 o3 cid addr rid req x p1 R1 R3) as [X|(p' & E1 & E2 & E3 & E4 & E5)]; auto.
  - apply in_or_app; now left.
  - apply in_or_app; now left.
  - rewrite <- app_assoc. exact Ne.
  - intros e X. apply Tf. now right.
  - left. rewrite <- app_assoc in X. exact X.
  - right. exists p'. split; [exact E1|]. split; [exact E2|]. split; [exact E3|]. split; [exact E4|]. rewrite requests_app, app_length.
    assert (Z : peer_turns addr (ev :: evs2) = (peer_turns addr [ev] + peer_turns addr evs2)%nat). { unfold peer_turns. change (ev :: evs2) with ([ev] ++ evs2). rewrite filter_app, app_length. reflexivity. }
    rewrite Z. lia.
Qed.

Lemma rep_reads evs2 : forall s s2 L2 addr p, run s evs2 = (s2, L2) -> ~ In (pr_cid p) (ended L2) -> takes_frames addr evs2 -> offers_requests addr evs2 ->
  mget addr (rp_peers s) = Some p -> pr_open p = true -> (wk p < peer_turns addr evs2)%nat -> requests_on (pr_cid p) L2 <> [].
Proof.
  induction evs2 as [|ev evs2 IH]; intros s s2 L2 addr p R2 Ne Tf Of G O Q.
  { cbn in Q. lia. }
  cbn [rp_run] in R2. destruct (act s ev) as [s1 o1] eqn:A. destruct (run s1 evs2) as [s3 o3] eqn:R3. inversion R2; subst s3 L2. clear R2.
  rewrite requests_app. assert (Ne2 : ~ In (pr_cid p) (ended o1)) by (intros X; apply Ne; rewrite !ended_app, !in_app_iff; auto).
  assert (Ne3 : ~ In (pr_cid p) (ended o3)) by (intros X; apply Ne; rewrite !ended_app, !in_app_iff; auto).
  assert (Tf' : takes_frames addr evs2) by (intros e X; apply Tf; now right). assert (Of' : offers_requests addr evs2) by (intros e X; apply Of; now right).
  assert (Z : peer_turns addr (ev :: evs2) = (peer_turns addr [ev] + peer_turns addr evs2)%nat). { unfold peer_turns. change (ev :: evs2) with ([ev] ++ evs2). rewrite filter_app, app_length. reflexivity. }
  rewrite Z in Q. clear Z.
  assert (Ot : (forall e, ev <> VPeer addr e) -> requests_on (pr_cid p) o1 ++ requests_on (pr_cid p) o3 <> []).
  { intros N. destruct (rep_other _ _ _ _ _ _ G O N A) as [X|X]; [contradiction|]. assert (Z : peer_turns addr [ev] = 0%nat).
    { unfold peer_turns. cbn [filter]. destruct ev as [a e| | | | | | |]; try reflexivity. destruct (N.eqb_spec a addr) as [->|]; [exfalso; exact (N e eq_refl)|reflexivity]. }
    assert (Y : requests_on (pr_cid p) o3 <> []) by (apply (IH s1 s2 o3 addr p R3 Ne3 Tf' Of' X O); lia). intros E. apply app_eq_nil in E. tauto. }
  destruct ev as [a e| | | | | | |]; try (apply Ot; intros e' X; discriminate X). destruct (N.eq_dec a addr) as [->|N]; [|apply Ot; intros e' X; inversion X; congruence].
  clear Ot. cbn [rp_act] in A. destruct (rp_peer min co D addr e s) as [[s1' o1'] st] eqn:P. inversion A; subst s1' o1'. destruct (Tf e (or_introl eq_refl)) as (Rd & Sd & _).
  destruct (rep_turn _ _ _ _ _ _ _ G O Rd Sd P) as [X|(p1 & G1 & G2 & G3 & _ & G5)]; [contradiction|].
  destruct (G5 (Of e (or_introl eq_refl))) as [X|X]; [|intros E; apply app_eq_nil in E; tauto].
  assert (Z : peer_turns addr [VPeer addr e] = 1%nat) by (unfold peer_turns; cbn [filter]; rewrite N.eqb_refl; reflexivity).
  rewrite <- G3 in *. intros E. apply app_eq_nil in E. destruct E as [_ E]. revert E. apply (IH s1 s2 o3 addr p1 R3 Ne3 Tf' Of' G1 G2). lia.
Qed.
End R.

(*@prop C90 (reply socket, what holds): a response the application has given is written to its client after at most two turns of this client per request received from it and not yet answered on the wire
    (counting requests received meanwhile), as long as its connection stays and takes frames - whatever other clients and the application do. *)
Lemma C90_response_turn_partial_pf :
  forall max min auth co D evs evs2 s log s2 log2 cid addr rid req x,
  rp_run max min auth co D rp_init evs = (s, log) -> rp_run max min auth co D s evs2 = (s2, log2) ->
  In (RIncoming cid addr rid req) log -> In (RResponded rid x true) log -> compressible co x -> ~ In cid (ended (log ++ log2)) ->
  takes_frames addr evs2 ->
  (2 * length (requests_on cid (log ++ log2)) <= 2 * length (handed_on cid log) + peer_turns addr evs2)%nat ->
  exists m, In m (handed_on cid (log ++ log2)) /\ answers co D (log ++ log2) cid rid m.
Proof.
  intros max min auth co D evs evs2 s L s2 L2 cid addr rid req x R R2 Hi Hr Cx Ne Tf Q.
  assert (Ne1 : ~ In cid (ended L)) by (intros X; apply Ne; rewrite ended_app; apply in_or_app; now left).
  destruct (resp_state max min auth co D _ _ _ _ _ _ _ _ R Hi Hr Cx Ne1) as (p & P1 & P2 & P3 & _).
  destruct (rep_turns max min auth co D evs2 evs s L s2 L2 cid addr rid req x p R R2 Hi Hr Cx Ne Tf P1) as [X|(p' & E1 & E2 & E3 & E4 & E5)]; [exact X|exfalso].
  pose proof (rep_budget max min auth co D evs s L addr p R P1 P2) as B. rewrite P3 in B. rewrite requests_app, app_length in Q.
  assert (W : wk p' = 0%nat) by lia. unfold wk in W. destruct E4 as [E4|(r & id & E4 & _)].
  - destruct (pr_egress p'); [congruence|cbn in W; lia].
  - destruct (pr_pending p'); [destruct E4|cbn in W; lia].
Qed.

(*@prop C90 (reply socket): reading is not starved by answering either.  A client that always has a request to offer and takes every frame gets the next one read after at most two turns per request it has not been answered on the wire, plus one. *)
Lemma C90_reading_turn_partial_pf :
  forall max min auth co D evs evs2 s log s2 log2 addr p,
  rp_run max min auth co D rp_init evs = (s, log) -> rp_run max min auth co D s evs2 = (s2, log2) ->
  mget addr (rp_peers s) = Some p -> pr_open p = true -> ~ In (pr_cid p) (ended log2) ->
  takes_frames addr evs2 -> offers_requests addr evs2 ->
  (2 * length (requests_on (pr_cid p) log) < 2 * length (handed_on (pr_cid p) log) + peer_turns addr evs2)%nat ->
  requests_on (pr_cid p) log2 <> [].
Proof.
  intros max min auth co D evs evs2 s L s2 L2 addr p R R2 G O Ne Tf Of Q. pose proof (rep_budget max min auth co D evs s L addr p R G O) as B.
  apply (rep_reads max min auth co D evs2 s s2 L2 addr p R2 Ne Tf Of G O). lia.
Qed.

(** ** Publisher *)
Definition pend (x : sess) : nat := match sn_pending x with Some _ => 1 | None => 0 end.
Definition lagw (buf T p : N) : nat := if N.ltb (p + bcast_cap buf) T then 1 + 2 * N.to_nat (bcast_cap buf) else 2 * N.to_nat (T - p).
Definition vw (buf T : N) (x : sess) : nat := (pend x + lagw buf T (sn_pos x))%nat.
Lemma vw_bound buf T x : (vw buf T x <= 2 * N.to_nat (bcast_cap buf) + 2)%nat.
Proof. unfold vw, pend, lagw. destruct (sn_pending x); destruct (N.ltb_spec (sn_pos x + bcast_cap buf) T); lia. Qed.

Lemma vw_iter buf T cid e hist cl x x' dtx o r : sn_pos x <= blen hist -> T <= blen hist -> s_ready e = true -> sn_iter buf cid e hist cl x = (x', dtx, o, r) ->
  r = SDone \/ r = SCrash \/
  (sn_pos x <= sn_pos x' /\ (sn_pos x < T -> (vw buf T x' + 1 <= vw buf T x)%nat) /\
   (T = blen hist -> cl = false -> (exists m, s_next e = PnMsg m) -> (vw buf T x' + 1 <= vw buf T x)%nat \/ exists m op, In (QControl cid m op) o)).
Proof.
  intros Hp Ht Rd. unfold sn_iter. rewrite Rd. cbn [sn_pending sn_pos sn_seq sn_filter sn_flush]. destruct (sn_pending x) as [m|] eqn:Pn.
  - assert (P1 : pend x = 1%nat) by (unfold pend; rewrite Pn; reflexivity).
    destruct (s_send e); intros H; inversion H; subst; [right; right|left; reflexivity]. unfold vw. rewrite P1. cbn [pend sn_pos sn_pending]. split; [lia|]. split; [intros; lia|left; lia].
  - assert (P1 : pend x = 0%nat) by (unfold pend; rewrite Pn; reflexivity).
    unfold bcast_recv. destruct (N.eqb_spec (sn_pos x) (blen hist)) as [Eq|Nq].
    { destruct cl; [intros H; inversion H; auto|]. destruct (s_next e) as [m| | |]; intros H; inversion H; subst; [right; right|auto|auto|right; right]; cbn [sn_pos]; (split; [lia|]); (split; [intros; lia|]).
      - intros _ _ _. right. exists m, (msg_to_control m). now left.
      - intros _ _ (m & X). discriminate. }
    destruct (N.ltb_spec (sn_pos x + bcast_cap buf) (blen hist)) as [Lg|Lg].
    + intros H; inversion H; subst; right; right. unfold vw, lagw. rewrite P1. cbn [pend sn_pos sn_pending]. split; [lia|].
      replace (blen hist - bcast_cap buf + bcast_cap buf <? T) with false by (symmetry; apply N.ltb_ge; lia).
      destruct (N.ltb_spec (sn_pos x + bcast_cap buf) T); (split; [intros; lia|intros; left; lia]).
    + destruct (nth_error hist (N.to_nat (sn_pos x))) as [p|] eqn:Nt; [|apply nth_error_None in Nt; unfold blen in *; lia].
      assert (K : forall q f pn fl, sn_pos x < T -> (vw buf T (mkSess q (sn_pos x + 1) pn f fl) + 1 <= vw buf T x)%nat).
      { intros q f pn fl Lt. unfold vw, lagw. rewrite P1. cbn [sn_pos]. replace (sn_pos x + bcast_cap buf <? T) with false by (symmetry; apply N.ltb_ge; lia).
        replace (sn_pos x + 1 + bcast_cap buf <? T) with false by (symmetry; apply N.ltb_ge; lia). unfold pend. cbn [sn_pending]. destruct pn; lia. }
      destruct (trie_contains _ _); [destruct (pub_into_wire _ _ _ _)|]; intros H; inversion H; subst; [right; right|auto|right; right]; cbn [sn_pos];
        (split; [lia|]; split; [apply K|intros -> _ _; left; apply K; lia]).
Qed.

Section P.
Variables (max : option N) (buf min : N) (auth : option (bytes -> bool)) (co : option compressor).
Notation pact := (pb_act max buf min auth co).
Notation prun := (pb_run max buf min auth co).

Lemma vw_new T h : T <= blen h -> vw buf T (sess_new (blen (A := pmsg) h)) = 0%nat.
Proof. intros H. unfold vw, lagw. cbn [sess_new pend sn_pending sn_pos]. replace (blen h + bcast_cap buf <? T) with false by (symmetry; apply N.ltb_ge; lia). cbn. lia. Qed.

Lemma vw_act T s ev s' o cid x : sn_pos x <= blen (pb_hist s) -> T <= blen (pb_hist s) -> mget cid (pb_sess s) = Some x -> pact s ev = (s', o) -> ~ In cid (sub_ended o) ->
  T <= blen (pb_hist s') /\
  exists x', mget cid (pb_sess s') = Some x' /\
    (T <= sn_pos x' \/ (sn_pos x < T /\ (vw buf T x' + ready_polls cid [ev] <= vw buf T x)%nat)) /\
    (T = blen (pb_hist s) -> pb_closed s = false -> nothing_published [ev] -> offers_control cid [ev] ->
       T = blen (pb_hist s') /\ pb_closed s' = false /\ ((vw buf T x' + ready_polls cid [ev] <= vw buf T x)%nat \/ exists m op, In (QControl cid m op) o)).
Proof.
  intros Hp Ht G A Ne.
  assert (Same : forall s2, pb_sess s2 = pb_sess s -> T <= blen (pb_hist s2) -> ready_polls cid [ev] = 0%nat -> (T = blen (pb_hist s) -> pb_closed s = false -> nothing_published [ev] -> T = blen (pb_hist s2) /\ pb_closed s2 = false) ->
    T <= blen (pb_hist s2) /\ exists x', mget cid (pb_sess s2) = Some x' /\ (T <= sn_pos x' \/ (sn_pos x < T /\ (vw buf T x' + ready_polls cid [ev] <= vw buf T x)%nat)) /\
    (T = blen (pb_hist s) -> pb_closed s = false -> nothing_published [ev] -> offers_control cid [ev] ->
       T = blen (pb_hist s2) /\ pb_closed s2 = false /\ ((vw buf T x' + ready_polls cid [ev] <= vw buf T x)%nat \/ exists m op, In (QControl cid m op) o))).
  { intros s2 E1 E2 E3 E4. split; [exact E2|]. exists x. rewrite E1, E3. split; [exact G|]. split; [destruct (N.le_gt_cases T (sn_pos x)); [now left|right; split; [lia|lia]]|].
    intros H1 H2 H3 _. destruct (E4 H1 H2 H3) as [E5 E6]. split; [exact E5|]. split; [exact E6|]. left. lia. }
  assert (Open : forall c s1, pb_sess s1 = pb_sess s -> pb_hist s1 = pb_hist s -> pb_closed s1 = pb_closed s -> ready_polls cid [ev] = 0%nat ->
    let s2 := fst (pb_open c s1) in T <= blen (pb_hist s2) /\ exists x', mget cid (pb_sess s2) = Some x' /\ (T <= sn_pos x' \/ (sn_pos x < T /\ (vw buf T x' + ready_polls cid [ev] <= vw buf T x)%nat)) /\
    (T = blen (pb_hist s) -> pb_closed s = false -> nothing_published [ev] -> offers_control cid [ev] ->
       T = blen (pb_hist s2) /\ pb_closed s2 = false /\ ((vw buf T x' + ready_polls cid [ev] <= vw buf T x)%nat \/ exists m op, In (QControl cid m op) o))).
  { intros c s1 E1 E2 E3 E4. unfold pb_open. cbn [fst pb_sess pb_hist pb_closed]. rewrite E1, E2, E3, E4, mget_set, G. split; [exact Ht|]. destruct (eq_dec cid c); eexists; (split; [reflexivity|]).
    - split; [left; exact Ht|]. intros H0 H _ _. split; [exact H0|]. split; [exact H|]. left. rewrite vw_new by exact Ht. lia.
    - split; [destruct (N.le_gt_cases T (sn_pos x)); [now left|right; split; [lia|lia]]|]. intros H1 H2 _ _. split; [exact H1|]. split; [exact H2|]. left; lia. }
  destruct ev as [c e|k i b|k r| |t p|t p|]; cbn [pb_act] in A.
  - unfold pb_session in A. destruct (N.eq_dec c cid) as [->|Nc].
    + rewrite G in A. destruct (sn_iter buf cid e (pb_hist s) (pb_closed s) x) as [[[x' dtx] o1] r] eqn:It.
      assert (Rp : ready_polls cid [WSession cid e] = if s_ready e then 1%nat else 0%nat) by (unfold ready_polls; cbn [filter]; rewrite N.eqb_refl; cbn [andb]; destruct (s_ready e); reflexivity).
      rewrite Rp in *. destruct (s_ready e) eqn:Rd.
      * assert (Nr : r <> SDone /\ r <> SCrash).
        { split; intros ->; inversion A; subst; apply Ne; unfold sub_ended; rewrite flat_map_app; apply in_or_app; right; now left. }
        destruct (vw_iter buf T cid e _ _ x x' dtx o1 r Hp Ht Rd It) as [X|[X|(V0 & V1 & V2)]]; [tauto|tauto|].
        assert (E : exists s0, s' = s0 /\ o = o1 /\ pb_hist s0 = pb_hist s /\ pb_closed s0 = pb_closed s /\ mget cid (pb_sess s0) = Some x').
        { destruct r; try tauto; inversion A; subst; eexists; (split; [reflexivity|]); cbn [pb_hist pb_closed pb_sess]; rewrite mget_set_eq; auto. }
        destruct E as (s0 & -> & -> & E1 & E2 & E3). rewrite E1, E2. split; [exact Ht|]. exists x'. split; [exact E3|]. split.
        -- destruct (N.le_gt_cases T (sn_pos x)); [left; lia|right; split; [lia|apply V1; lia]].
        -- intros H1 H2 _ Of. split; [exact H1|]. split; [exact H2|]. apply V2; auto. apply Of. now left.
      * unfold sn_iter in It. rewrite Rd in It. cbn [sn_seq sn_pos sn_pending sn_filter] in It. inversion It; subst. inversion A; subst. cbn [pb_hist pb_closed pb_sess]. rewrite mget_set_eq. split; [exact Ht|]. eexists. split; [reflexivity|].
        unfold vw. cbn [sn_pos]. change (pend (mkSess (sn_seq x) (sn_pos x) (sn_pending x) (sn_filter x) (if sn_flush x && s_tick e && s_flush_ok e then false else sn_flush x))) with (pend x).
        split; [destruct (N.le_gt_cases T (sn_pos x)); [now left|right; split; [lia|lia]]|]. intros H1 H2 _ _. split; [exact H1|]. split; [exact H2|]. left. lia.
    + assert (Rp : ready_polls cid [WSession c e] = 0%nat) by (unfold ready_polls; cbn [filter]; destruct (N.eqb_spec c cid); [congruence|reflexivity]).
      destruct (mget c (pb_sess s)) as [y|]; [|inversion A; subst; apply Same; auto].
      assert (E : exists s0, s' = s0 /\ pb_hist s0 = pb_hist s /\ pb_closed s0 = pb_closed s /\ mget cid (pb_sess s0) = Some x).
      { destruct (sn_iter buf c e (pb_hist s) (pb_closed s) y) as [[[x' dtx] o1] [| | |]]; inversion A; subst; eexists; (split; [reflexivity|]); cbn [pb_closed pb_decr pb_with_active pb_hist pb_sess]; rewrite ?mget_set_ne, ?mget_del_ne by congruence; auto. }
      destruct E as (s0 & -> & E1 & E2 & E3). rewrite E1, E2, Rp. split; [exact Ht|]. exists x. split; [exact E3|]. split; [destruct (N.le_gt_cases T (sn_pos x)); [now left|right; split; [lia|lia]]|]. intros H1 H2 _ _. split; [exact H1|]. split; [exact H2|]. left. lia.
  - unfold pb_auth in A.
    destruct (nth_error (pb_auths s) k) as [c|]; [|inversion A; subst; apply Same; auto]. destruct auth as [a|]; [|inversion A; subst; apply Same; auto].
    destruct (auth_server a b i) as [[[id| | |] w] rs].
    + set (s1 := mkPb _ _ _ _ _ _ _ _) in A. pose proof (Open c s1 eq_refl eq_refl eq_refl eq_refl) as Op. destruct (pb_open c s1) as [s2 o2] eqn:Eo. inversion A; subst. exact Op.
    + inversion A; subst. apply Same; auto.
    + inversion A; subst. apply Same; auto.
    + inversion A; subst. apply Same; auto.
  - unfold pb_conn in A.
    destruct (nth_error (pb_conns s) k) as [c|]; [|inversion A; subst; apply Same; auto].
    destruct r as [[|]|]; [|inversion A; subst; apply Same; auto|inversion A; subst; apply Same; auto].
    destruct auth as [a|]; [inversion A; subst; apply Same; auto|].
    set (s1 := mkPb _ _ _ _ _ _ _ _) in A. pose proof (Open c s1 eq_refl eq_refl eq_refl eq_refl) as Op. destruct (pb_open c s1) as [s2 o2] eqn:Eo. inversion A; subst. exact Op.
  - unfold pb_accept in A. destruct (match max with Some m => _ | None => _ end); inversion A; subst; apply Same; auto.
  - unfold pb_send in A. destruct (publish_outgoing min co p); [destruct (pb_closed s)|]; inversion A; subst; apply Same; auto; try (intros _ _ X; destruct (X _ (or_introl eq_refl)));
      unfold blen in *; cbn [pb_hist]; rewrite app_length; cbn [length]; lia.
  - unfold pb_send in A. destruct (try_publish_outgoing min co p); [destruct (pb_closed s)|]; inversion A; subst; apply Same; auto; try (intros _ _ X; destruct (X _ (or_introl eq_refl)));
      unfold blen in *; cbn [pb_hist]; rewrite app_length; cbn [length]; lia.
  - destruct (pb_closed s); inversion A; subst; apply Same; auto; intros _ _ X; destruct (X _ (or_introl eq_refl)).
Qed.

Lemma ready_cons cid ev more : ready_polls cid (ev :: more) = (ready_polls cid [ev] + ready_polls cid more)%nat.
Proof. unfold ready_polls. cbn [filter]. destruct (match ev with WSession c e => _ | _ => _ end); reflexivity. Qed.

Lemma pub_catch T evs2 : forall evs s L s2 L2 cid x, prun pb_init evs = (s, L) -> prun s evs2 = (s2, L2) -> mget cid (pb_sess s) = Some x -> ~ In cid (sub_ended L2) -> T <= blen (pb_hist s) ->
  exists x', mget cid (pb_sess s2) = Some x' /\ (T <= sn_pos x \/ (vw buf T x <= ready_polls cid evs2)%nat -> T <= sn_pos x').
Proof.
  induction evs2 as [|ev evs2 IH]; intros evs s L s2 L2 cid x R R2 G Ne Ht.
  { cbn in R2. inversion R2; subst. exists x. split; [exact G|]. intros [H|H]; [exact H|]. cbn in H. unfold vw, lagw in H. destruct (N.ltb_spec (sn_pos x + bcast_cap buf) T); lia. }
  cbn [pb_run] in R2. destruct (pact s ev) as [s1 o1] eqn:A. destruct (prun s1 evs2) as [s3 o3] eqn:R3. inversion R2; subst s3 L2. clear R2.
  assert (Ne1 : ~ In cid (sub_ended o1)) by (intros X; apply Ne; unfold sub_ended; rewrite flat_map_app; apply in_or_app; now left).
  assert (Ne3 : ~ In cid (sub_ended o3)) by (intros X; apply Ne; unfold sub_ended; rewrite flat_map_app; apply in_or_app; now right).
  pose proof (sess_pos _ _ _ _ _ _ _ _ _ _ R G) as Hp. destruct (vw_act T s ev s1 o1 cid x Hp Ht G A Ne1) as (Ht1 & x1 & G1 & V & _).
  assert (R1 : prun pb_init (evs ++ [ev]) = (s1, L ++ o1)) by (rewrite PubDriverP.run_app, R; cbn [pb_run]; rewrite A, app_nil_r; reflexivity).
  destruct (IH _ _ _ _ _ cid x1 R1 R3 G1 Ne3 Ht1) as (x' & G' & V'). exists x'. split; [exact G'|]. rewrite ready_cons. intros H. apply V'.
  destruct V as [V|[V1 V2]]; [now left|]. destruct H as [H|H]; [lia|right; lia].
Qed.

Lemma pub_ctl evs2 : forall evs s L s2 L2 cid x, prun pb_init evs = (s, L) -> prun s evs2 = (s2, L2) -> mget cid (pb_sess s) = Some x -> ~ In cid (sub_ended L2) -> pb_closed s = false ->
  nothing_published evs2 -> offers_control cid evs2 -> (vw buf (blen (pb_hist s)) x < ready_polls cid evs2)%nat -> exists m op, In (QControl cid m op) L2.
Proof.
  induction evs2 as [|ev evs2 IH]; intros evs s L s2 L2 cid x R R2 G Ne Cl Np Of Q.
  { cbn in Q. lia. }
  cbn [pb_run] in R2. destruct (pact s ev) as [s1 o1] eqn:A. destruct (prun s1 evs2) as [s3 o3] eqn:R3. inversion R2; subst s3 L2. clear R2.
  assert (Ne1 : ~ In cid (sub_ended o1)) by (intros X; apply Ne; unfold sub_ended; rewrite flat_map_app; apply in_or_app; now left).
  assert (Ne3 : ~ In cid (sub_ended o3)) by (intros X; apply Ne; unfold sub_ended; rewrite flat_map_app; apply in_or_app; now right).
  pose proof (sess_pos _ _ _ _ _ _ _ _ _ _ R G) as Hp. destruct (vw_act _ s ev s1 o1 cid x Hp (N.le_refl _) G A Ne1) as (_ & x1 & G1 & _ & V).
  destruct V as (V1 & V2 & [V3|(m & op & V3)]); auto.
  - intros ev' [<-|[]]. apply Np. now left.
  - intros e [He|[]]. apply Of. now left.
  - assert (R1 : prun pb_init (evs ++ [ev]) = (s1, L ++ o1)) by (rewrite PubDriverP.run_app, R; cbn [pb_run]; rewrite A, app_nil_r; reflexivity).
    rewrite ready_cons in Q. destruct (IH _ _ _ _ _ cid x1 R1 R3 G1 Ne3 V2) as (m & op & H).
    + intros e X. apply Np. now right.
    + intros e X. apply Of. now right.
    + rewrite <- V1. lia.
    + exists m, op. apply in_or_app. now right.
  - exists m, op. apply in_or_app. now left.
Qed.
End P.

(*@prop C90 (publisher, what holds): each message published since a session started is looked at by that session, or dropped by it as too old, after at most 2 * capacity + 2 turns at which its connection can take a frame, where capacity is
    session_buffer_size rounded up to a power of two - however much is published meanwhile. *)
Lemma C90_publication_turn_partial_pf :
  forall max buf min auth co evs evs2 s log s2 log2 cid x before after i,
  pb_run max buf min auth co pb_init evs = (s, log) -> pb_run max buf min auth co s evs2 = (s2, log2) ->
  mget cid (pb_sess s) = Some x -> log = before ++ QOpen cid :: after -> blen (published before) <= i < blen (published log) -> ~ In cid (sub_ended log2) ->
  (2 * N.to_nat (bcast_cap buf) + 2 <= ready_polls cid evs2)%nat ->
  In (QTook cid i) (log ++ log2) \/ exists from to, In (QSkipped cid from to) (log ++ log2) /\ from <= i < to.
Proof.
  intros max buf min auth co evs evs2 s L s2 L2 cid x b a i R R2 G E Hi Ne Q.
  destruct (run_tinv buf max min auth co evs s L R) as [_ T0]. pose proof (ti_hist _ _ _ T0) as Th.
  destruct (pub_catch max buf min auth co (blen (published L)) evs2 evs s L s2 L2 cid x R R2 G Ne ltac:(rewrite Th; lia)) as (x' & G' & V).
  assert (R1 : pb_run max buf min auth co pb_init (evs ++ evs2) = (s2, L ++ L2)) by (rewrite PubDriverP.run_app, R, R2; reflexivity).
  destruct (run_tinv buf max min auth co _ _ _ R1) as [_ T1]. pose proof (ti_sess _ _ _ T1 _ _ G') as Si.
  assert (P : blen (published L) <= sn_pos x') by (apply V; right; pose proof (vw_bound buf (blen (published L)) x); lia).
  destruct (si_cover _ _ _ Si b (a ++ L2) i) as [X|(u & v & X & Y)].
  - rewrite E, <- app_assoc. reflexivity.
  - lia.
  - lia.
  - left. exact X.
  - right. exists u, v. auto.
Qed.

(*@prop C90 (publisher): when nothing is published for a while, a subscription or cancellation sent by the subscriber is read after at most 2 * capacity + 3 such turns. *)
Lemma C90_control_turn_partial_pf :
  forall max buf min auth co evs evs2 s log s2 log2 cid x,
  pb_run max buf min auth co pb_init evs = (s, log) -> pb_run max buf min auth co s evs2 = (s2, log2) ->
  mget cid (pb_sess s) = Some x -> pb_closed s = false -> ~ In cid (sub_ended log2) -> nothing_published evs2 -> offers_control cid evs2 ->
  (2 * N.to_nat (bcast_cap buf) + 3 <= ready_polls cid evs2)%nat ->
  exists m op, In (QControl cid m op) log2.
Proof.
  intros max buf min auth co evs evs2 s L s2 L2 cid x R R2 G Cl Ne Np Of Q. apply (pub_ctl max buf min auth co evs2 evs s L s2 L2 cid x R R2 G Ne Cl Np Of).
  pose proof (vw_bound buf (blen (pb_hist s)) x). lia.
Qed.

(*@prop C90 is violated for subscriptions: while one message is published per turn, a session never reads what its subscriber sends.  For every [n]: a subscriber whose subscription has arrived before the first of [n] messages on its topic gets none
    of them in [n] turns - the connection being ready to take frames all the time -, the subscription still being unread. *)
Lemma C90_control_starves_refuted_pf :
  forall n, exists s log, pb_run None 1024 0 None None pb_init [WAccept; WConn 0 (Some true)] = (s, log) /\ In (QOpen 0) log /\
  exists s2 log2, pb_run None 1024 0 None None s (concat (repeat [WPublish [x61] [x01]; WSession 0 (px_env (px_sub [x61]))] n)) = (s2, log2) /\
    length (published log2) = n /\ (forall i, i < N.of_nat n -> In (QTook 0 i) log2) /\
    (forall m op, ~ In (QControl 0 m op) log2) /\ sent_to 0 log2 = [].
Proof.
  intros n. eexists _, _. split; [vm_compute; reflexivity|]. split; [right; now left|].
  assert (K : forall n k a cs tx h x nx, sn_pos x = blen h -> blen h = k -> sn_pending x = None -> sn_filter x = trie_new ->
    exists s2 log2, pb_run None 1024 0 None None (mkPb a cs [] [(0, x)] h false nx tx) (concat (repeat [WPublish [x61] [x01]; WSession 0 (px_env (px_sub [x61]))] n)) = (s2, log2) /\
    length (published log2) = n /\ (forall i, k <= i < k + N.of_nat n -> In (QTook 0 i) log2) /\ (forall m op, ~ In (QControl 0 m op) log2) /\ sent_to 0 log2 = []).
  { clear n. induction n as [|n IH]; intros k a cs tx h x nx Hp Hk Hn Hf.
    - eexists _, _. split; [reflexivity|]. split; [reflexivity|]. split; [intros; lia|]. split; [intros m op []|reflexivity].
    - cbn [repeat concat app]. cbn [pb_run pb_act]. unfold pb_send. destruct (publish_outgoing 0 None [x01]) as [bd|] eqn:Ep; [clear Ep|vm_compute in Ep; discriminate].
      cbn [pb_closed pb_active pb_conns pb_auths pb_sess pb_hist pb_next_cid pb_tx].
      assert (St : exists x1, pb_session 1024 0 (px_env (px_sub [x61])) (mkPb a cs [] [(0, x)] (h ++ [mkPm [x61] bd]) false nx tx) = (mkPb a cs [] [(0, x1)] (h ++ [mkPm [x61] bd]) false nx (tx + 0), [QTook 0 k], Some SCont) /\
        sn_pos x1 = blen (h ++ [mkPm [x61] bd]) /\ sn_pending x1 = None /\ sn_filter x1 = trie_new).
      { unfold pb_session. cbn [mget pb_sess]. destruct (eq_dec 0 0) as [_|X]; [|congruence]. cbn [pb_hist pb_closed]. unfold sn_iter. cbn [px_env s_ready sn_pending sn_pos]. rewrite Hn.
        assert (B : bcast_recv (bcast_cap 1024) (sn_pos x) (blen (h ++ [mkPm [x61] bd])) false = BMsg).
        { unfold bcast_recv. rewrite blen_app, Hp. replace (bcast_cap 1024) with 1024 by reflexivity. change (blen [mkPm [x61] bd]) with 1. destruct (N.eqb_spec (blen h) (blen h + 1)); [lia|]. destruct (N.ltb_spec (blen h + 1024) (blen h + 1)); [lia|reflexivity]. }
        rewrite B. assert (Nt : nth_error (h ++ [mkPm [x61] bd]) (N.to_nat (sn_pos x)) = Some (mkPm [x61] bd)).
        { rewrite Hp. unfold blen. rewrite Nat2N.id, nth_error_app2 by lia. rewrite Nat.sub_diag. reflexivity. }
        rewrite Nt. cbn [sn_filter pm_topic]. rewrite Hf. replace (trie_contains trie_new [x61]) with false by (vm_compute; reflexivity).
        eexists. cbn [sn_seq sn_filter pb_active pb_conns pb_auths pb_next_cid pb_tx mset]. destruct (eq_dec 0 0) as [_|X]; [|congruence]. rewrite Hp, Hk. split; [reflexivity|]. cbn [sn_pos sn_pending sn_filter]. split; [|auto]. rewrite blen_app, Hk. reflexivity. }
      destruct St as (x1 & St & Q1 & Q2 & Q3). rewrite St. cbv beta iota zeta.
      destruct (IH (k + 1) a cs (tx + 0) (h ++ [mkPm [x61] bd]) x1 nx Q1 ltac:(rewrite blen_app, Hk; reflexivity) Q2 Q3) as (s2 & L2 & R & I1 & I2 & I3 & I4). rewrite R.
      eexists _, _. split; [reflexivity|]. cbn [app published flat_map length]. split; [f_equal; exact I1|]. split.
      + intros i Hi. destruct (N.eq_dec i k) as [->|Ni]; [right; now left|right; right; apply I2; lia].
      + split; [intros m op [X|[X|X]]; [discriminate|discriminate|exact (I3 _ _ X)]|exact I4]. }
  match goal with |- context [pb_run None 1024 0 None None (mkPb ?a ?cs [] [(0, ?x)] ?h false ?nx ?tx)] => destruct (K n 0 a cs tx h x nx eq_refl eq_refl eq_refl eq_refl) as (s2 & L2 & R & H1 & H2 & H3 & H4) end.
  exists s2, L2. split; [exact R|]. split; [exact H1|]. split; [intros i Hi; apply H2; lia|]. auto.
Qed.


(** ** Request socket: what comes in goes first *)
(*@prop C90 is violated for requests: reading goes first, without bound.  As long as the server sends a message - any message - at every turn of the task (turns at which tokio's budget is used up excepted), a connected request socket takes
    no request from its callers and times nothing out, however long this goes on and whatever calls are made; nor does it write a frame, except at the turns excepted. *)
Lemma C90_reading_first_refuted_pf :
  forall o co D evs s log evs2 s2 log2,
  rd_run o co D rd_init evs = (s, log) -> rd_done s = false -> rd_conn s = RActive ->
  Forall (fun e => server_talks e \/ out_of_budget e) (iters evs2) ->
  rd_run o co D s evs2 = (s2, log2) ->
  ReqSpec.accepted log2 = [] /\ (forall t, ~ In (CheckedTimeouts t) log2) /\ (forall c, ~ In (Resolve c OTimeout) log2) /\
  (Forall server_talks (iters evs2) -> ReqSpec.handed log2 = []).
Proof.
  intros o co D evs s log evs2 s2 log2 _. revert s s2 log2. induction evs2 as [|ev evs2 IH]; intros s s2 log2 Dn Co He R; cbn [rd_run] in R.
  - injection R as <- <-. split; [reflexivity|]. split; [intros ? []|]. split; [intros ? []|reflexivity].
  - destruct (rd_step o co D s ev) as [s1 o1] eqn:St. destruct (rd_run o co D s1 evs2) as [s3 o3] eqn:R1. injection R as <- <-.
    assert (He2 : Forall (fun e => server_talks e \/ out_of_budget e) (iters evs2)) by (unfold iters in *; cbn [flat_map] in He; apply Forall_app in He; tauto).
    assert (K : rd_done s1 = false /\ rd_conn s1 = RActive /\ ReqSpec.accepted o1 = [] /\ (forall t, ~ In (CheckedTimeouts t) o1) /\ (forall c, ~ In (Resolve c OTimeout) o1) /\ (Forall server_talks (iters (ev :: evs2)) -> ReqSpec.handed o1 = [])).
    { destruct ev as [c p| |e]; cbn [rd_step] in St.
      - destruct (rd_done s || rd_dropped s); injection St as <- <-; cbn; repeat split; auto; intros ? H; cbn in H; (destruct H as [H|[]]; discriminate) || destruct H.
      - injection St as <- <-. cbn. repeat split; auto.
      - rewrite Dn in St. assert (T : e_task e = None) by (inversion_clear He as [|? ? [(X & _)|(X & _)] _]; exact X). unfold rd_iter in St.
        assert (F : rd_done (rd_do_flush o e s) = false /\ rd_conn (rd_do_flush o e s) = RActive).
        { unfold rd_do_flush. destruct (rd_flush s); [|auto]. destruct (match ro_flush_interval o with Some _ => _ | None => _ end); [|auto]. rewrite Co. destruct (e_flush_ok e); cbn; auto. }
        destruct F as (F1 & F2). set (s0 := rd_do_flush o e s) in *. clearbody s0. unfold rd_do_task in St. rewrite T in St.
        replace (if rd_task s0 then (s0, []) else (s0, [])) with (s0, @nil out) in St by (destruct (rd_task s0); reflexivity).
        rewrite F2 in St. unfold rd_do_active in St. inversion_clear He as [|? ? [(_ & m & Nx)|(_ & Nx & Rc & Tk & Sd)] _]; rewrite Nx in St.
        + unfold rd_on_message in St.
          destruct (mget (rr_id m) (rd_pending s0)) as [[st c]|]; [destruct (try_decompress D (rr_ctype m) (rr_payload m))|]; injection St as <- <-; cbn; repeat split; auto; intros ? H; cbn in H; (destruct H as [H|[]]; discriminate) || destruct H.
        + assert (Nt : Forall server_talks (iters (EIter e :: evs2)) -> False) by (intros X; inversion_clear X as [|? ? (_ & m & Y) _]; congruence).
          destruct (if e_ready e then rd_egress s0 else []) as [|m q].
          * unfold rd_do_command in St. rewrite Tk, Rc in St. cbn [rd_ticks app] in St. injection St as <- <-. repeat split; auto; intros ? [].
          * rewrite Sd in St. injection St as <- <-. cbn [rd_done rd_conn ReqSpec.accepted flat_map app]. repeat split; auto; [intros ? [H|[]]; discriminate|intros ? [H|[]]; discriminate|intros X; destruct (Nt X)]. }
    destruct K as (K1 & K2 & K3 & K4 & K5 & K6). destruct (IH s1 s3 o3 K1 K2 He2 R1) as (I1 & I2 & I3 & I4).
    unfold ReqSpec.accepted in *. rewrite flat_map_app, K3, I1. split; [reflexivity|]. split; [intros x Hx; apply in_app_or in Hx; destruct Hx as [Hx|Hx]; [eapply K4|eapply I2]; eauto|].
    split; [intros x Hx; apply in_app_or in Hx; destruct Hx as [Hx|Hx]; [eapply K5|eapply I3]; eauto|]. intros X. rewrite handed_app, K6, I4; [reflexivity| |exact X]. unfold iters in X. cbn [flat_map] in X. apply Forall_app in X. apply X.
Qed.

(** ** Reply socket: requests before connections *)
Section RepTask.
Variables (max : option N) (min : N) (auth : option (bytes -> bool)) (co : option compressor) (D : decompressors).
Lemma peer_out addr e s s' o st : rp_peer min co D addr e s = (s', o, st) -> (forall x, In x o -> ~ admits x) /\ ((exists c a r m, In (RIncoming c a r m) o) -> st = PsItem).
Proof using Type.
  rewrite RepDriverP.rp_peer_eq. destruct (mget addr (rp_peers s)) as [p|]; [|intros [= <- <- <-]; split; [intros x []|intros (c & a & r & m & [])]].
  destruct (pr_open p); [|intros [= <- <- <-]; split; [intros x []|intros (c & a & r & m & [])]].
  destruct (peer_iter min co e (rp_os s) (rp_next_rid s) p (rp_tx s) (rp_failed s)) as [[[[p' tx] fl] o1] r] eqn:Pi.
  assert (K : Forall (fun x => ~ admits x /\ match x with RIncoming _ _ _ _ => False | _ => True end) o1).
  { unfold peer_iter in Pi. set (p0 := if pr_flush p && p_flush_ok e then _ else p) in *. clearbody p0.
    assert (Kn : forall p1, (match p_next e with
      | NxMsg m => (mkPeer (pr_cid p1) (pr_pending p1 ++ [(rp_next_rid s, rr_id m)]) (pr_egress p1) (pr_flush p1) (pr_open p1), rp_tx s, rp_failed s, [], PReq m)
      | NxErr => (p1, rp_tx s, rp_failed s, [], PErr) | NxEof => (p1, rp_tx s, rp_failed s, [], PNone) | NxPending => (p1, rp_tx s, rp_failed s, [], PPend) end) = (p', tx, fl, o1, r) -> o1 = []).
    { intros p1 H. destruct (p_next e); congruence. }
    destruct (if p_ready e then pr_egress p0 else []) as [|m q].
    - destruct (pick (p_pref e) (rp_os s) (pr_pending p0)) as [[rr id]|].
      + destruct (mget rr (rp_os s)) as [[|x|]|]; [apply Kn in Pi; subst; constructor| |apply Kn in Pi; subst; constructor|apply Kn in Pi; subst; constructor].
        destruct (rep_outgoing min co id x); injection Pi as <- <- <- <- <-; repeat constructor; cbn; auto.
      + apply Kn in Pi. subst. constructor.
    - destruct (p_send e); injection Pi as <- <- <- <- <-; repeat constructor; cbn; auto. }
  rewrite Forall_forall in K. unfold RepDriverP.peer_handle. destruct r as [|m| | |].
  - intros [= <- <- <-]. split; [intros x H; now apply K|]. intros (c & a & r & m & H). apply K in H. destruct H as [_ []].
  - destruct (rp_on_request D _ addr (pr_cid p) m) as [s2 o2] eqn:Q. intros [= <- <- <-]. split; [|reflexivity]. intros x H. apply in_app_or in H. destruct H as [H|H]; [now apply K|].
    unfold rp_on_request in Q. destruct (try_decompress D (rr_ctype m) (rr_payload m)); [destruct (rp_dropped _ || _)|]; injection Q as <- <-; destruct H as [<-|[<-|[]]]; cbn; auto.
  - intros [= <- <- <-]. split; [intros x H; now apply K|]. intros (c & a & r & m & H). apply K in H. destruct H as [_ []].
  - intros [= <- <- <-]. split; [|reflexivity]. intros x H. apply in_app_or in H. destruct H as [H|[<-|[]]]; [now apply K|cbn; auto].
  - intros [= <- <- <-]. split; [intros x H; now apply K|]. intros (c & a & r & m & H). apply K in H. destruct H as [_ []].
Qed.
Lemma peer_poll_out addr es : forall s s' o r, rp_peer_poll min co D addr es s = (s', o, r) -> (forall x, In x o -> ~ admits x) /\ ((exists c a q m, In (RIncoming c a q m) o) -> r = Some true).
Proof using Type.
  induction es as [|e es IH]; intros s s' o r; cbn [rp_peer_poll].
  - intros [= <- <- <-]. split; [intros x []|intros (c & a & q & m & [])].
  - destruct (rp_peer min co D addr e s) as [[s1 o1] st] eqn:P. pose proof (peer_out _ _ _ _ _ _ P) as (A & B).
    destruct st; try (intros [= <- <- <-]; split; [exact A|]; intros H; apply B in H; congruence || reflexivity).
    destruct (rp_peer_poll min co D addr es s1) as [[s2 o2] r2] eqn:R. destruct (IH _ _ _ _ R) as (A2 & B2). intros [= <- <- <-]. split.
    + intros x H. apply in_app_or in H. destruct H; auto.
    + intros (c & a & q & m & H). apply in_app_or in H. destruct H as [H|H]; [assert (X : PsLoop = PsItem) by (apply B; eauto 6); discriminate|apply B2; eauto 6].
Qed.
Lemma poll_peers_out order es : forall s s' o r, rp_poll_peers min co D order es s = (s', o, r) -> (forall x, In x o -> ~ admits x) /\ ((exists c a q m, In (RIncoming c a q m) o) -> r = Some true).
Proof using Type.
  induction order as [|a order IH]; intros s s' o r; cbn [rp_poll_peers].
  - intros [= <- <- <-]. split; [intros x []|intros (c & b & q & m & [])].
  - destruct (rp_peer_poll min co D a (es a) s) as [[s1 o1] st] eqn:P. pose proof (peer_poll_out _ _ _ _ _ _ P) as (A & B).
    destruct st as [[|]|]; try (intros [= <- <- <-]; split; [exact A|]; intros H; apply B in H; congruence || reflexivity).
    destruct (rp_poll_peers min co D order es s1) as [[s2 o2] r2] eqn:R. destruct (IH _ _ _ _ R) as (A2 & B2). intros [= <- <- <-]. split.
    + intros x H. apply in_app_or in H. destruct H; auto.
    + intros (c & b & q & m & H). apply in_app_or in H. destruct H as [H|H]; [assert (X : Some false = Some true) by (apply B; eauto 6); discriminate|apply B2; eauto 6].
Qed.
Lemma iter_out d s s' o r c a q m : rp_iter max min auth co D d s = (s', o, r) -> In (RIncoming c a q m) o -> forall x, In x o -> ~ admits x.
Proof using Type.
  unfold rp_iter. destruct (rp_poll_peers min co D (d_all d s) (d_peers d) s) as [[s1 o1] st] eqn:P. pose proof (poll_peers_out _ _ _ _ _ _ P) as (A & B).
  destruct st as [[|]|]; try (intros [= <- <- <-] H; exact A).
  assert (N1 : forall c a q m, ~ In (RIncoming c a q m) o1) by (intros c' a' q' m' H; assert (X : Some false = Some true) by (apply B; eauto 6); discriminate).
  intros I H. exfalso.
  assert (NI : forall l, Forall (fun x => match x with RIncoming _ _ _ _ => False | _ => True end) l -> ~ In (RIncoming c a q m) l) by (intros l F X; rewrite Forall_forall in F; apply F in X; exact X).
  assert (Ni : forall s' o', (forall k a, rp_insert s' k a = o' -> Forall (fun x => match x with RIncoming _ _ _ _ => False | _ => True end) (snd o'))).
  { intros z o' k b <-. unfold rp_insert. cbn [snd]. constructor; [exact Logic.I|]. destruct (mget b (rp_peers z)) as [p|]; [destruct (pr_open p)|]; repeat constructor. }
  destruct (match d_auth d with Some (k, i, b) => rp_auth auth k i b s1 | None => (s1, [], false) end) as [[s2 o2] c2] eqn:A2.
  assert (F2 : Forall (fun x => match x with RIncoming _ _ _ _ => False | _ => True end) o2).
  { destruct (d_auth d) as [[[k i] b]|]; [|injection A2 as <- <- <-; constructor]. unfold rp_auth in A2. destruct (nth_error (rp_auths s1) k) as [[ci ad]|]; [|injection A2 as <- <- <-; constructor].
    destruct auth as [au|]; [|injection A2 as <- <- <-; constructor]. destruct (auth_server au b i) as [[[id| | |] w] ex]; [|injection A2 as <- <- <-; repeat constructor..].
    match type of A2 with context [rp_insert ?z ci ad] => destruct (rp_insert z ci ad) as [s3 o3] eqn:Ins end. injection A2 as <- <- <-. constructor; [exact Logic.I|]. constructor; [exact Logic.I|]. exact (Ni _ _ _ _ Ins). }
  destruct c2; [injection I as <- <- <-; apply in_app_or in H; destruct H as [H|H]; [exact (N1 _ _ _ _ H)|exact (NI _ F2 H)]|].
  destruct (match d_conn d with Some (k, r0) => rp_conn auth k r0 s2 | None => (s2, [], false) end) as [[s3 o3] c3] eqn:A3.
  assert (F3 : Forall (fun x => match x with RIncoming _ _ _ _ => False | _ => True end) o3).
  { destruct (d_conn d) as [[k i]|]; [|injection A3 as <- <- <-; constructor]. unfold rp_conn in A3. destruct (nth_error (rp_conns s2) k) as [ci|]; [|injection A3 as <- <- <-; constructor].
    destruct i as [[ad|]|]; [|injection A3 as <- <- <-; repeat constructor..]. destruct auth as [au|]; [injection A3 as <- <- <-; constructor|].
    match type of A3 with context [rp_insert ?z ci ad] => destruct (rp_insert z ci ad) as [s4 o4] eqn:Ins end. injection A3 as <- <- <-. exact (Ni _ _ _ _ Ins). }
  destruct c3; [injection I as <- <- <-; apply in_app_or in H; destruct H as [H|H]; [exact (N1 _ _ _ _ H)|apply in_app_or in H; destruct H as [H|H]; [exact (NI _ F2 H)|exact (NI _ F3 H)]]|].
  assert (F : forall o4, Forall (fun x => match x with RIncoming _ _ _ _ => False | _ => True end) o4 -> In (RIncoming c a q m) (o1 ++ o2 ++ o3 ++ o4) -> False).
  { intros o4 F4 X. apply in_app_or in X; destruct X as [X|X]; [exact (N1 _ _ _ _ X)|apply in_app_or in X; destruct X as [X|X]; [exact (NI _ F2 X)|apply in_app_or in X; destruct X as [X|X]; [exact (NI _ F3 X)|exact (NI _ F4 X)]]]. }
  destruct (d_accept d).
  - unfold rp_accept in I. destruct (match max with Some m0 => _ | None => false end); injection I as <- <- <-; (eapply F; [|exact H]); repeat constructor.
  - injection I as <- <- <-. apply (F []); [constructor|]. rewrite app_nil_r. exact H.
Qed.
End RepTask.

(*@prop C90 is violated for connections: requests go first.  A turn of the reply socket's task that reads a request admits nobody: no connection is taken from the listener, none becomes a client, no handshake is answered. *)
Lemma C90_requests_before_connections_refuted_pf :
  forall max min auth co D d s s' new r, rp_iter max min auth co D d s = (s', new, r) ->
  forall cid addr rid m, In (RIncoming cid addr rid m) new -> forall x, In x new -> ~ admits x.
Proof. intros. eapply iter_out; eauto. Qed.

(** The invariant of the starving listener. *)
Definition lone (s : rp) : Prop :=
  (exists p, rp_peers s = [(7, p)] /\ pr_open p = true /\ pr_egress p = [] /\ pr_cid p = 0) /\ (forall r x, mget r (rp_os s) <> Some (OsSent x)).
Lemma lone_turn s : lone s -> exists s' o r, rp_iter None 0 None None sx_D wx_env s = (s', o, Some true) /\ lone s' /\ requests_on 0 o = [r] /\ forall x, In x o -> ~ admits x.
Proof.
  intros ((p & Ps & Po & Pe & Pc) & Os). destruct (rp_iter None 0 None None sx_D wx_env s) as [[s' o] st] eqn:It.
  assert (Hpoll : exists s1 o1, rp_peer 0 None sx_D 7 (rx_penv (NxMsg (rr_new 3 x00 [x41]))) s = (s1, o1, PsItem) /\ lone s1 /\ requests_on 0 o1 = [rp_next_rid s] /\ In (RIncoming 0 7 (rp_next_rid s) (rr_new 3 x00 [x41])) o1).
  { rewrite RepDriverP.rp_peer_eq, Ps. cbn [mget]. destruct (eq_dec 7 7) as [_|X]; [|congruence]. rewrite Po.
    assert (Pi : exists p1, peer_iter 0 None (rx_penv (NxMsg (rr_new 3 x00 [x41]))) (rp_os s) (rp_next_rid s) p (rp_tx s) (rp_failed s) = (p1, rp_tx s, rp_failed s, [], PReq (rr_new 3 x00 [x41])) /\ pr_open p1 = true /\ pr_egress p1 = [] /\ pr_cid p1 = 0).
    { unfold peer_iter. set (p0 := if pr_flush p && _ then _ else p). assert (P0 : pr_open p0 = true /\ pr_egress p0 = [] /\ pr_cid p0 = 0) by (unfold p0; destruct (pr_flush p && _); auto).
      clearbody p0. destruct P0 as (Q1 & Q2 & Q3). change (p_ready (rx_penv (NxMsg (rr_new 3 x00 [x41])))) with true. change (p_next (rx_penv (NxMsg (rr_new 3 x00 [x41])))) with (NxMsg (rr_new 3 x00 [x41])). cbv beta iota zeta. rewrite Q2.
      destruct (pick (p_pref (rx_penv (NxMsg (rr_new 3 x00 [x41])))) (rp_os s) (pr_pending p0)) as [[r id]|].
      - destruct (mget r (rp_os s)) as [[|x|]|] eqn:G; [| exfalso; exact (Os _ _ G) | |]; eexists; (split; [reflexivity|]); auto.
      - eexists. split; [reflexivity|]. auto. }
    destruct Pi as (p1 & -> & R1 & R2 & R3). unfold RepDriverP.peer_handle. rewrite Pc.
    match goal with |- context [rp_on_request sx_D ?z 7 0 ?m] => set (z0 := z); assert (Z : lone z0 /\ rp_next_rid z0 = rp_next_rid s) end.
    { split; [|reflexivity]. split; [|exact Os]. exists p1. cbn. rewrite Ps. cbn [mset]. destruct (eq_dec 7 7) as [_|X]; [|congruence]. auto. }
    clearbody z0. destruct Z as (((p2 & Z1 & Z2 & Z3 & Z4) & Z5) & Z6). unfold rp_on_request. change (try_decompress sx_D (rr_ctype (rr_new 3 x00 [x41])) (rr_payload (rr_new 3 x00 [x41]))) with (Some [x41]).
    cbv beta iota zeta. rewrite Z6. destruct (rp_dropped z0 || (rep_chan_cap <=? blen (rp_chan z0))); eexists _, _; (split; [reflexivity|]); (split; [split; [exists p2; auto|]|split; [reflexivity|now left]]);
      intros r x; cbn [rp_os]; rewrite mget_set; match goal with |- context [if ?b then _ else _] => destruct b end; try discriminate; apply Z5. }
  destruct Hpoll as (s1 & o1 & Hp & L1 & Q1 & Q2). pose proof It as It'. unfold rp_iter in It'.
  assert (Da : d_all wx_env s = [7]) by (unfold d_all; rewrite Ps; reflexivity). rewrite Da in It'. cbn [rp_poll_peers rp_peer_poll wx_env d_peers] in It'. rewrite Hp in It'. injection It' as <- <- <-.
  exists s1, o1, (rp_next_rid s). split; [reflexivity|]. split; [exact L1|]. split; [exact Q1|]. eapply iter_out; [exact It|exact Q2].
Qed.
(*@prop C90 is violated for connections, concretely: for every [n], one client that keeps sending requests holds the task for [n] turns; all this time a connection that has been accepted does not become a client and the listener is
    not asked for the next one, which is waiting. *)
Lemma C90_accept_starves_refuted_pf :
  forall n, exists s log, rp_run None 0 None None sx_D rp_init [VAccept; VConn 0 (Some (Some 7)); VAccept] = (s, log) /\ In (RAccepted 1) log /\
  exists s2 log2, rp_poll None 0 None None sx_D (repeat wx_env n) s = (s2, log2, false) /\ length (requests_on 0 log2) = n /\ forall x, In x log2 -> ~ admits x.
Proof.
  intros n. eexists _, _. split; [vm_compute; reflexivity|]. split; [right; right; now left|].
  assert (K : forall n s, lone s -> exists s2 log2, rp_poll None 0 None None sx_D (repeat wx_env n) s = (s2, log2, false) /\ length (requests_on 0 log2) = n /\ forall x, In x log2 -> ~ admits x).
  { clear n. induction n as [|n IH]; intros s L.
    - eexists _, _. split; [reflexivity|]. split; [reflexivity|intros x []].
    - destruct (lone_turn s L) as (s1 & o1 & r & I1 & L1 & Q1 & Q2). destruct (IH s1 L1) as (s2 & o2 & I2 & E & A). cbn [repeat rp_poll]. rewrite I1, I2. eexists _, _. split; [reflexivity|].
      rewrite requests_app, Q1. cbn [app length]. split; [congruence|]. intros x H. apply in_app_or in H. destruct H; auto. }
  apply K. split; [|intros r x; cbn; discriminate]. eexists. split; [reflexivity|]. auto.
Qed.

(** ** Subscriber *)
From Verif Require Import Proofs.SubDriverP Proofs.SubDriverP2 Proofs.SubDriverP3.
Section SubTask.
Variables (token : option bytes) (ingress initial : N) (D : decompressors).
Definition not_sess (x : uout) : Prop := match x with UGot _ _ | UWire _ _ _ => False | _ => True end.
Lemma ns_got cid o : Forall not_sess o -> SubSpec.got cid o = [] /\ wired cid o = [].
Proof using Type. induction 1 as [|x o Hx _ [I1 I2]]; [auto|]. destruct x; cbn in *; tauto || auto. Qed.
Lemma ns_release st s s' o : sb_release st s = (s', o) -> Forall not_sess o.
Proof using Type. unfold sb_release. destruct st as [[c|b]|]; [destruct (mget c (sb_conns s))|..]; intros [= <- <-]; repeat constructor. Qed.
Lemma ns_reset a s s' o : sb_reset initial a s = (s', o) -> Forall not_sess o.
Proof using Type. unfold sb_reset. destruct (sb_release (mget a (sb_pubs s)) s) as [s1 o1] eqn:R. intros [= <- <-]. apply Forall_app. split; [eapply ns_release; eauto|repeat constructor]. Qed.
Lemma ns_tell c l : forall s s' o, sb_tell initial c l s = (s', o) -> Forall not_sess o.
Proof using Type.
  induction l as [|[a st] l IH]; intros s s' o; cbn [sb_tell]; [intros [= <- <-]; constructor|]. destruct st as [cid|b]; [|apply IH]. destruct (mget cid (sb_conns s)) as [x|]; [|apply IH].
  destruct (sc_try c x) as [x' r]. destruct (match r with TClosed => _ | _ => _ end) as [s2 o2] eqn:R. destruct (sb_tell initial c l s2) as [s3 o3] eqn:T. intros [= <- <-]. constructor; [exact I|]. apply Forall_app. split; [|eapply IH; eauto].
  destruct r; [injection R as <- <-; constructor..|eapply ns_reset; exact R].
Qed.
Lemma ns_connect a s s' o : sb_connect a s = (s', o) -> Forall not_sess o.
Proof using Type. unfold sb_connect. destruct (jm_spawn a (sb_tasks s)) as [j []]; intros [= <- <-]; repeat constructor. Qed.
Lemma ns_command c s s' o : sb_command initial c s = (s', o) -> Forall not_sess o.
Proof using Type.
  destruct c as [t|t|a|a|]; cbn [sb_command].
  - destruct (smem t (sb_topics s)); [intros [= <- <-]; constructor|apply ns_tell].
  - destruct (smem t (sb_topics s)); [apply ns_tell|intros [= <- <-]; constructor].
  - destruct (mem a (sb_pubs s)); [intros [= <- <-]; constructor|]. destruct (sb_connect a s) as [s1 o1] eqn:C. destruct (sb_reset initial a s1) as [s2 o2] eqn:R. intros [= <- <-]. apply Forall_app. split; [eapply ns_connect; eauto|eapply ns_reset; eauto].
  - destruct (mget a (sb_pubs s)) as [st|]; [|intros [= <- <-]; constructor]. destruct (sb_release (Some st) s) as [s1 o1] eqn:C. intros [= <- <-]. eapply ns_release; eauto.
  - intros [= <- <-]. constructor.
Qed.
Lemma ns_greet cid ts : forall x x' o, sb_greet cid ts x = (x', o) -> Forall not_sess o.
Proof using Type. induction ts as [|t ts IH]; intros x x' o; cbn [sb_greet]; [intros [= <- <-]; constructor|]. destruct (sc_try (SSub t) x) as [x1 r]. destruct (sb_greet cid ts x1) as [x2 o2] eqn:G. intros [= <- <-]. constructor; [exact I|eauto]. Qed.
Lemma ns_act s ev s' o : (forall c e, ev <> YSess c e) -> sb_act token ingress initial D s ev = (s', o) -> Forall not_sess o.
Proof using Type.
  intros Ne. destruct ev as [c e|a now| |k r order|f| |]; cbn [sb_act].
  - destruct (Ne c e eq_refl).
  - destruct (sb_entry ingress initial D a now s) as [[s1 o1] p] eqn:E. intros [= <- <-]. unfold sb_entry in E. destruct (mget a (sb_pubs s)) as [[cid|b]|]; [| |injection E as <- <- <-; constructor].
    + destruct (mget cid (sb_conns s)) as [x|]; [|injection E as <- <- <-; constructor]. destruct (sc_in x) as [|m rest].
      * destruct (sc_alive x); [injection E as <- <- <-; constructor|]. destruct (sb_reset initial a s) as [s2 o2] eqn:R. injection E as <- <- <-. eapply ns_reset; eauto.
      * destruct (try_decompress D (tm_ctype m) (tm_payload m)) as [pp|]; [|injection E as <- <- <-; repeat constructor]. unfold sb_pass in E. destruct (sb_dropped _) in E; [injection E as <- <- <-; repeat constructor|]. destruct (blen _ <? ingress) in E; injection E as <- <- <-; repeat constructor.
    + destruct (bo_poll now b) as [b' [x| | |]].
      * destruct (jm_contains a (sb_tasks s)); [injection E as <- <- <-; constructor|]. destruct (sb_connect a _) as [s2 o2] eqn:R in E. injection E as <- <- <-. eapply ns_connect; eauto.
      * injection E as <- <- <-; repeat constructor.
      * injection E as <- <- <-; repeat constructor.
      * injection E as <- <- <-; repeat constructor.
  - destruct (sb_next_command initial s) as [[s1 o1] p] eqn:E. intros [= <- <-]. unfold sb_next_command in E. destruct (sb_cmdq s) as [|c q]; [injection E as <- <- <-; constructor|]. destruct (sb_command initial c (sb_set_cmdq s q)) as [s2 o2] eqn:C. injection E as <- <- <-. constructor; [exact I|eapply ns_command; eauto].
  - destruct (sb_join token k r order s) as [[s1 o1] p] eqn:E. intros [= <- <-]. unfold sb_join in E. destruct (nth_error (jm_tasks (sb_tasks s)) k) as [a|]; [|injection E as <- <- <-; constructor].
    destruct r as [| |ok input]; [injection E as <- <- <-; repeat constructor..|]. destruct (auth_client token ok input) as [[[| | |] w] ex]; [|injection E as <- <- <-; repeat constructor..].
    match type of E with context [sb_connected a order ?z] => destruct (sb_connected a order z) as [s2 o2] eqn:C end. injection E as <- <- <-. unfold sb_connected in C.
    match type of C with context [sb_greet ?c ?t ?x] => destruct (sb_greet c t x) as [x2 o3] eqn:G end.
    destruct (mget a (sb_pubs _)) as [[c|b]|] in C; injection C as <- <-; repeat constructor; eapply ns_greet; eauto.
  - unfold sb_call. destruct (sb_dropped s); [intros [= <- <-]; constructor|]. destruct (api_command f) as [c|r]; [destruct (blen (sb_cmdq s) <? COMMAND_CAP)|]; intros [= <- <-]; repeat constructor.
  - unfold sb_take. destruct (sb_out s) as [|[[[c a] t] p] q]; intros [= <- <-]; repeat constructor.
  - unfold sb_drop. destruct (sb_dropped s); intros [= <- <-]; repeat constructor.
Qed.
Notation run := (sb_run token ingress initial D).
Notation act := (sb_act token ingress initial D).

(** A session's turn, in numbers. *)
Lemma eg_ok cid m rest ans e o p f : eg_loop cid (m :: rest) (SaOk :: ans) = (e, o, p, f) -> p = true /\ exists ok, In (UWire cid m ok) o.
Proof using Type. cbn [eg_loop]. destruct (eg_loop cid rest ans) as [[[e' o'] p'] f']. intros [= <- <- <- <-]. split; [reflexivity|]. eexists. now left. Qed.
Lemma eg_got cid eg : forall ans e o p f, eg_loop cid eg ans = (e, o, p, f) -> SubSpec.got cid o = [].
Proof using Type.
  induction eg as [|m eg IH]; intros ans e o p f; cbn [eg_loop]; [intros [= <- <- <- <-]; reflexivity|]. destruct ans as [|[| |] ans]; try (intros [= <- <- <- <-]; reflexivity);
  (destruct (eg_loop cid eg ans) as [[[e' o'] p'] f'] eqn:E; intros [= <- <- <- <-]; cbn; eapply IH; eauto).
Qed.
Lemma sess_turn cid e x x' o r : ss_iter cid e x = (x', o, r) -> (exists rest, y_sends e = SaOk :: rest) ->
  match y_next e with
  | PnMsg _ | PnErr => SubSpec.got cid o = [] /\ wired cid o = []
  | _ => match sc_egress x, sc_cmds x with
         | _ :: _, _ => SubSpec.got cid o = [] /\ wired cid o <> []
         | [], [] => SubSpec.got cid o = [] /\ wired cid o = []
         | [], c :: _ => SubSpec.got cid o = [c] /\ wired cid o = []
         end
  end.
Proof using Type.
  intros H (rest & Hs). unfold ss_iter in H. rewrite Hs in H. destruct (y_next e) as [m| | |]; cbv zeta in H.
  - unfold ss_incoming in H. destruct (negb _) in H; [injection H as <- <- <-; auto|]. destruct (_ <? IN_CAP) in H; injection H as <- <- <-; auto.
  - injection H as <- <- <-. auto.
  - cbn [sc_egress sc_set_egress sc_cmds sc_held] in H. destruct (sc_egress x) as [|m eg] eqn:Eg.
    + cbn [eg_loop] in H. destruct (sc_cmds x) as [|c cs].
      * destruct (sc_held x); injection H as <- <- <-; auto.
      * destruct (cmd_frame (y_now e) c); injection H as <- <- <-; cbn; destruct (eq_dec cid cid); try congruence; auto.
    + destruct (eg_loop cid (m :: eg) (SaOk :: rest)) as [[[e' o'] p'] f'] eqn:E. destruct (eg_ok _ _ _ _ _ _ _ _ E) as [-> (ok & Hi)]. injection H as <- <- <-. split; [eapply eg_got; eauto|].
      intro X. assert (HY : In m (wired cid o')) by (unfold wired; apply in_flat_map; exists (UWire cid m ok); split; [exact Hi|]; cbn; destruct (eq_dec cid cid); [now left|congruence]). rewrite X in HY. exact HY.
  - cbn [sc_egress sc_set_egress sc_cmds sc_held] in H. destruct (sc_egress x) as [|m eg] eqn:Eg.
    + cbn [eg_loop] in H. destruct (sc_cmds x) as [|c cs].
      * destruct (sc_held x); injection H as <- <- <-; auto.
      * destruct (cmd_frame (y_now e) c); injection H as <- <- <-; cbn; destruct (eq_dec cid cid); try congruence; auto.
    + destruct (eg_loop cid (m :: eg) (SaOk :: rest)) as [[[e' o'] p'] f'] eqn:E. destruct (eg_ok _ _ _ _ _ _ _ _ E) as [-> (ok & Hi)]. injection H as <- <- <-. split; [eapply eg_got; eauto|].
      intro X. assert (HY : In m (wired cid o')) by (unfold wired; apply in_flat_map; exists (UWire cid m ok); split; [exact Hi|]; cbn; destruct (eq_dec cid cid); [now left|congruence]). rewrite X in HY. exact HY.
Qed.

(** What the state of a living session says about the log. *)
Lemma sess_view evs s L cid c k : run sb_init evs = (s, L) -> nth_error (enqueued cid L) k = Some c -> ~ In (UEnd cid) L -> ~ In (UCrash cid) L ->
  exists x, mget cid (sb_conns s) = Some x /\ sc_alive x = true /\ enqueued cid L = SubSpec.got cid L ++ sc_cmds x /\
    Permutation (map ps_topic (wired cid L ++ sc_egress x)) (map ctl_topic (SubSpec.got cid L)).
Proof using Type.
  intros R Hk N1 N2. pose proof (run_connI token ingress initial D cid _ _ _ R) as CI. pose proof (ci_life _ _ _ _ CI) as Li. pose proof (ci_cmd _ _ _ _ CI) as Cm. pose proof (ci_wire _ _ _ _ CI) as Wi.
  destruct (mget cid (sb_conns s)) as [x|]; [|cbn in Cm; rewrite <- enqueued_on, Cm in Hk; cbn in Hk; destruct k; discriminate]. exists x. split; [reflexivity|].
  assert (A : sc_alive x = true).
  { destruct (sc_alive x) eqn:A; [reflexivity|]. exfalso. destruct Li as (_ & Li & _). apply Li in A. destruct A as [A|A]; apply in_on in A; try (apply about_same; reflexivity); auto. }
  destruct Cm as (C1 & _). specialize (C1 A). rewrite enqueued_on, got_on in C1. destruct Wi as (_ & _ & W & _). specialize (W A). destruct W as [W _]. rewrite wired_on, got_on in W. auto.
Qed.
Lemma quiet_cons cid ev evs : quiet_sess_turns cid (ev :: evs) = (quiet_sess_turns cid [ev] + quiet_sess_turns cid evs)%nat.
Proof using Type. unfold quiet_sess_turns. cbn [filter]. destruct (match ev with YSess c e => _ | _ => false end); reflexivity. Qed.

Lemma sub_turns evs2 : forall evs s L s2 L2 cid k c, run sb_init evs = (s, L) -> run s evs2 = (s2, L2) -> nth_error (enqueued cid L) k = Some c ->
  ~ In (UEnd cid) (L ++ L2) -> ~ In (UCrash cid) (L ++ L2) -> sub_link_up cid evs2 ->
  (2 * Nat.max (k + 1) (length (SubSpec.got cid L)) <= length (SubSpec.got cid L) + length (wired cid L) + quiet_sess_turns cid evs2)%nat ->
  exists j w rest, (k < j)%nat /\ wired cid (L ++ L2) = w ++ rest /\ Permutation (map ps_topic w) (map ctl_topic (firstn j (enqueued cid (L ++ L2)))).
Proof using Type.
  assert (Done : forall evs s L L2 cid k c, run sb_init evs = (s, L) -> nth_error (enqueued cid L) k = Some c -> ~ In (UEnd cid) (L ++ L2) -> ~ In (UCrash cid) (L ++ L2) ->
    (k < length (SubSpec.got cid L))%nat -> length (SubSpec.got cid L) = length (wired cid L) ->
    exists j w rest, (k < j)%nat /\ wired cid (L ++ L2) = w ++ rest /\ Permutation (map ps_topic w) (map ctl_topic (firstn j (enqueued cid (L ++ L2))))).
  { intros evs s L L2 cid k c R Hk N1 N2 Hg Hw. destruct (sess_view evs s L cid c k R Hk) as (x & G & A & E & P); [intros X; apply N1, in_or_app; auto|intros X; apply N2, in_or_app; auto|].
    pose proof (Permutation_length P) as PL. rewrite !map_length, app_length in PL. destruct (sc_egress x) as [|]; [|cbn in PL; lia]. rewrite app_nil_r in P.
    exists (length (SubSpec.got cid L)), (wired cid L), (wired cid L2). split; [exact Hg|]. rewrite wired_app. split; [reflexivity|]. rewrite enqueued_app, E, <- app_assoc, firstn_app, Nat.sub_diag, firstn_all. cbn [firstn]. rewrite app_nil_r. exact P. }
  induction evs2 as [|ev evs2 IH]; intros evs s L s2 L2 cid k c R R2 Hk N1 N2 Up Hb.
  - cbn in R2. injection R2 as <- <-. cbn [quiet_sess_turns filter length] in Hb.
    assert (PL : (length (wired cid L) <= length (SubSpec.got cid L))%nat).
    { destruct (sess_view evs s L cid c k R Hk) as (x & G & A & E & P); [intros X; apply N1, in_or_app; auto|intros X; apply N2, in_or_app; auto|]. pose proof (Permutation_length P) as PL. rewrite !map_length, app_length in PL. lia. }
    eapply Done; eauto; change (quiet_sess_turns cid []) with 0%nat in Hb; lia.
  - cbn [sb_run] in R2. destruct (act s ev) as [s1 o1] eqn:A1. destruct (run s1 evs2) as [s3 o3] eqn:R3. injection R2 as <- <-.
    destruct (sess_view evs s L cid c k R Hk) as (x & G & A & E & P); [intros X; apply N1, in_or_app; auto|intros X; apply N2, in_or_app; auto|].
    pose proof (Permutation_length P) as PL. rewrite !map_length, app_length in PL.
    assert (R' : run sb_init (evs ++ [ev]) = (s1, L ++ o1)).
    { rewrite (SubDriverP.run_app token ingress initial D), R. cbn [sb_run]. rewrite A1. now rewrite app_nil_r. }
    assert (Hk' : nth_error (enqueued cid (L ++ o1)) k = Some c) by (rewrite enqueued_app, nth_error_app1; [exact Hk|apply nth_error_Some; congruence]).
    assert (Up' : sub_link_up cid evs2) by (intros e He; apply Up; now right).
    rewrite quiet_cons in Hb. rewrite app_assoc in N1, N2 |- *.
    assert (Same : SubSpec.got cid o1 = [] -> wired cid o1 = [] -> quiet_sess_turns cid [ev] = 0%nat -> exists j w rest, (k < j)%nat /\ wired cid ((L ++ o1) ++ o3) = w ++ rest /\ Permutation (map ps_topic w) (map ctl_topic (firstn j (enqueued cid ((L ++ o1) ++ o3))))).
    { intros E1 E2 E3. eapply (IH _ _ _ _ _ cid k c R' R3 Hk' N1 N2 Up'). rewrite SubDriverP2.got_app, wired_app, E1, E2, !app_nil_r. lia. }
    destruct (match ev with YSess k0 _ => k0 =? cid | _ => false end) eqn:Ev.
    2:{ assert (Q0 : quiet_sess_turns cid [ev] = 0%nat) by (unfold quiet_sess_turns; cbn [filter]; destruct ev; try reflexivity; rewrite Ev; reflexivity).
        destruct ev as [k0 e|a now| |kk r order|f| |]; try (pose proof (fun X => ns_act _ _ _ _ X A1) as Ns; destruct (ns_got cid o1 (Ns ltac:(discriminate))) as [Z1 Z2]; exact (Same Z1 Z2 Q0)).
        apply N.eqb_neq in Ev. cbn [sb_act] in A1. unfold sb_session in A1. destruct (mget k0 (sb_conns s)) as [y|]; [|injection A1 as <- <-; now apply Same]. destruct (sc_alive y) eqn:Ay; [|injection A1 as <- <-; now apply Same].
        destruct (ss_iter k0 e y) as [[y' oy] r] eqn:Iy. injection A1 as <- <-. destruct (ss_iter_csts D k0 e y y' oy r Iy Ay) as (Fa & _).
        assert (On : on cid oy = []). { rewrite (on_one k0 cid oy Fa). destruct (eq_dec cid k0); [congruence|reflexivity]. }
        apply Same; [now rewrite <- got_on, On|now rewrite <- wired_on, On|exact Q0]. }
    destruct ev as [k0 e| | | | | |]; try discriminate. apply N.eqb_eq in Ev. subst k0. cbn [sb_act] in A1. unfold sb_session in A1. rewrite G, A in A1. destruct (ss_iter cid e x) as [[x' ox] r] eqn:Ix. injection A1 as <- <-.
    pose proof (sess_turn cid e x x' ox r Ix (Up e (or_introl eq_refl))) as T.
    assert (Q : forall b, match y_next e with PnMsg _ | PnErr => false | _ => true end = b -> quiet_sess_turns cid [YSess cid e] = if b then 1%nat else 0%nat).
    { intros b Hb'. unfold quiet_sess_turns. cbn [filter]. rewrite N.eqb_refl, Hb'. destruct b; reflexivity. }
    assert (Quiet : quiet_sess_turns cid [YSess cid e] = 1%nat -> match sc_egress x, sc_cmds x with
         | _ :: _, _ => SubSpec.got cid ox = [] /\ wired cid ox <> [] | [], [] => SubSpec.got cid ox = [] /\ wired cid ox = [] | [], c :: _ => SubSpec.got cid ox = [c] /\ wired cid ox = [] end ->
         exists j w rest, (k < j)%nat /\ wired cid ((L ++ ox) ++ o3) = w ++ rest /\ Permutation (map ps_topic w) (map ctl_topic (firstn j (enqueued cid ((L ++ ox) ++ o3))))).
    { clear T. intros Q1 T. rewrite Q1 in Hb. destruct (sc_egress x) as [|m eg] eqn:Eg.
      - cbn [length] in PL. destruct (le_lt_dec (k + 1) (length (SubSpec.got cid L))) as [Hd|Hd].
        + rewrite <- app_assoc in N1, N2 |- *. eapply Done; eauto; lia.
        + destruct (sc_cmds x) as [|cc cs] eqn:Ec; [exfalso; rewrite E, app_nil_r in Hk; assert (X : nth_error (SubSpec.got cid L) k <> None) by congruence; apply nth_error_Some in X; lia|].
          destruct T as [T1 T2]. eapply (IH _ _ _ _ _ cid k c R' R3 Hk' N1 N2 Up'). rewrite SubDriverP2.got_app, wired_app, T1, T2, app_nil_r, app_length. cbn [length]. lia.
      - destruct T as [T1 T2]. eapply (IH _ _ _ _ _ cid k c R' R3 Hk' N1 N2 Up'). rewrite SubDriverP2.got_app, wired_app, T1, app_nil_r, app_length. destruct (wired cid ox); [congruence|]. cbn [length]. lia. }
    destruct (y_next e) eqn:Nx; try (apply Same; [apply T|apply T|now apply (Q false)]); apply Quiet; auto; now apply (Q true).
Qed.
End SubTask.

(*@prop C90 (subscriber, what holds): the frame for the [k]-th subscription or cancellation passed to a session is handed to the connection after at most two turns of the session per command up to it - turns at which the publisher sends something do not
    count -, as long as the connection takes at least one frame per turn: at some point the frames handed over so far are exactly those of the first [j > k] commands. *)
Lemma C90_subscription_turn_partial_pf :
  forall token ingress initial D evs evs2 s log s2 log2 cid k c,
  sb_run token ingress initial D sb_init evs = (s, log) -> sb_run token ingress initial D s evs2 = (s2, log2) ->
  nth_error (enqueued cid log) k = Some c ->
  ~ In (UEnd cid) (log ++ log2) -> ~ In (UCrash cid) (log ++ log2) -> sub_link_up cid evs2 ->
  (2 * Nat.max (k + 1) (length (SubSpec.got cid log)) <= length (SubSpec.got cid log) + length (wired cid log) + quiet_sess_turns cid evs2)%nat ->
  exists j w rest, (k < j)%nat /\ wired cid (log ++ log2) = w ++ rest /\
    Permutation (map ps_topic w) (map ctl_topic (firstn j (enqueued cid (log ++ log2)))).
Proof. intros. eapply sub_turns; eauto. Qed.

(*@prop C90 is violated for subscriptions on the subscriber's side too: reading goes first, without bound.  As long as the publisher sends a message at every turn of the session, no command is taken by the session and no frame is written. *)
Lemma C90_messages_first_refuted_pf :
  forall token ingress initial D evs s log evs2 s2 log2 cid,
  sb_run token ingress initial D sb_init evs = (s, log) -> sb_run token ingress initial D s evs2 = (s2, log2) ->
  offers_messages cid evs2 -> SubSpec.got cid log2 = [] /\ wired cid log2 = [].
Proof.
  intros token ingress initial D evs s log evs2 s2 log2 cid _. revert s s2 log2. induction evs2 as [|ev evs2 IH]; intros s s2 log2 R Of; cbn [sb_run] in R.
  - injection R as <- <-. auto.
  - destruct (sb_act token ingress initial D s ev) as [s1 o1] eqn:A1. destruct (sb_run token ingress initial D s1 evs2) as [s3 o3] eqn:R3. injection R as <- <-.
    destruct (IH s1 s3 o3 R3 (fun e He => Of e (or_intror He))) as [I1 I2]. rewrite SubDriverP2.got_app, wired_app, I1, I2, !app_nil_r. clear IH R3 I1 I2.
    destruct ev as [k0 e|a now| |kk r order|f| |]; try (apply ns_got; eapply ns_act; [|exact A1]; discriminate).
    cbn [sb_act] in A1. unfold sb_session in A1. destruct (mget k0 (sb_conns s)) as [y|]; [|injection A1 as <- <-; auto]. destruct (sc_alive y) eqn:Ay; [|injection A1 as <- <-; auto].
    destruct (ss_iter k0 e y) as [[y' oy] r] eqn:Iy. injection A1 as <- <-. destruct (eq_dec cid k0) as [<-|Ne].
    + destruct (Of e (or_introl eq_refl)) as (m & Hm). unfold ss_iter in Iy. rewrite Hm in Iy. cbv zeta in Iy. unfold ss_incoming in Iy. destruct (negb _) in Iy; [injection Iy as <- <- <-; auto|]. destruct (_ <? IN_CAP) in Iy; injection Iy as <- <- <-; auto.
    + destruct (ss_iter_csts D k0 e y y' oy r Iy Ay) as (Fa & _). assert (On : on cid oy = []) by (rewrite (on_one k0 cid oy Fa); destruct (eq_dec cid k0); [congruence|reflexivity]).
      split; [now rewrite <- got_on, On|now rewrite <- wired_on, On].
Qed.

Lemma busy_sub n : forall cq o dr j t st x nx, sc_in x = [] -> sc_alive x = true -> sc_held x = true ->
  exists s2 log2, busy_turns None 4 1000 sx_D 0 (sx_env (sx_msg x00 [x01])) (mkYd 5 [] None) n (mkSb cq o dr j t [(sx_addr, PActive 0)] st [(0, x)] nx) = Some (s2, log2) /\
    length (received_on 0 log2) = n /\ commands log2 = [] /\ sb_cmdq s2 = cq.
Proof.
  induction n as [|n IH]; intros cq o dr j t st x nx Hi Ha Hh.
  - eexists _, _. cbn [busy_turns]. split; [reflexivity|]. auto.
  - cbn [busy_turns]. unfold sb_session. cbn [sb_conns mget]. destruct (eq_dec 0 0) as [_|X]; [|congruence]. rewrite Ha. unfold ss_iter. cbv zeta.
    destruct (sx_msg x00 [x01]) as [m| | |] eqn:Em; [|discriminate..]. cbn [sx_env y_next y_now y_flush]. unfold ss_incoming. cbv zeta. cbn [sc_set_egress sc_held sc_in]. rewrite Hh, Hi. cbn [negb]. change (blen (@nil tmsg) <? IN_CAP) with true. cbv iota.
    match goal with |- context [sb_set_conns _ (mset 0 ?y _)] => set (x1 := y) end.
    assert (X1 : sc_in x1 = [tmsg_of m] /\ sc_alive x1 = true /\ sc_held x1 = true) by (subst x1; cbn; auto). clearbody x1. destruct X1 as (X1 & X2 & X3).
    unfold sb_set_conns at 1. cbn [sb_cmdq sb_out sb_dropped sb_tasks sb_topics sb_pubs sb_stats sb_conns sb_next mset]. destruct (eq_dec 0 0) as [_|X]; [|congruence]. unfold sb_iter. cbn [sb_pubs mkeys map fst yd_order yd_now]. change (arrange [] [sx_addr]) with [sx_addr]. cbn [sb_entries]. unfold sb_entry. cbn [sb_pubs mget]. destruct (eq_dec sx_addr sx_addr) as [_|X]; [|congruence].
    cbn [sb_conns mset mget]. destruct (eq_dec 0 0) as [_|X]; [|congruence]. rewrite X1.
    assert (Dc : try_decompress sx_D (tm_ctype (tmsg_of m)) (tm_payload (tmsg_of m)) = Some [x01]) by (unfold sx_msg in Em; injection Em as <-; reflexivity). rewrite Dc. cbn [sb_set_conns sb_cmdq sb_out sb_dropped sb_tasks sb_topics sb_pubs sb_stats sb_conns sb_next].
    set (x2 := sc_set_in x1 []). assert (Y : sc_in x2 = [] /\ sc_alive x2 = true /\ sc_held x2 = true) by (subst x2; cbn; auto). clearbody x2. destruct Y as (Y1 & Y2 & Y3).
    unfold sb_pass, sb_set_conns. cbn [sb_cmdq sb_out sb_dropped sb_tasks sb_topics sb_pubs sb_stats sb_conns sb_next]. cbn [mset]. destruct (eq_dec 0 0) as [_|X]; [|congruence].
    destruct dr; [|destruct (blen o <? 4)]; cbv beta iota zeta; cbn [orb]; unfold sb_set_out; cbv beta iota zeta; cbn [ sb_cmdq sb_out sb_dropped sb_tasks sb_topics sb_pubs sb_stats sb_conns sb_next];
      match goal with |- context [busy_turns _ _ _ _ _ _ _ n (mkSb ?a ?b ?c ?d ?e _ ?g _ ?h)] => destruct (IH a b c d e g x2 h Y1 Y2 Y3) as (s2 & L2 & R & Q1 & Q2 & Q3) end; rewrite ?Em in R; rewrite ?Em, R; eexists _, _; (split; [reflexivity|]);
      cbn; (split; [f_equal; exact Q1|]); auto.
Qed.
(*@prop C90 is violated for the application's calls: messages go before commands.  For every [n]: while a publisher sends one message per turn, [n] turns of the subscriber's task leave a subscribe() call, made before, untouched
    in the queue. *)
Lemma C90_commands_starve_refuted_pf :
  forall n, exists s log, sx_run (sx_open ++ [YApi (ApSub true [x62])]) = (s, log) /\ In (UApi (ApSub true [x62]) AOk) log /\
  exists s2 log2, busy_turns None 4 1000 sx_D 0 (sx_env (sx_msg x00 [x01])) (mkYd 5 [] None) n s = Some (s2, log2) /\
    length (received_on 0 log2) = n /\ commands log2 = [] /\ sb_cmdq s2 = [CSub [x62]].
Proof.
  intros n. eexists _, _. split; [vm_compute; reflexivity|]. split; [repeat first [now left | right]|].
  match goal with |- context [busy_turns _ _ _ _ _ _ _ n (mkSb ?cq ?o ?dr ?j ?t [(?ad, PActive 0)] ?st [(0, ?x)] ?nx)] => change ad with sx_addr; apply (busy_sub n cq o dr j t st x nx); reflexivity end.
Qed.

(*@example Two calls, one of them written already; the server sends a message meanwhile; the second call's frame is number 1 on the wire. *)
Lemma C90_request_example_pf :
  forall D, let r := rd_run ex_opts None D rd_init [EIter (ex_env 0); EIter (ex_env (20 * ms)); EIter (ex_conn (21 * ms) true); EReq 7 [x68]; EReq 8 [x79]; EIter (ex_env (22 * ms)); EIter (ex_env (22 * ms))] in
  let evs2 := map EIter [ex_resp 9 [x00]; ex_env (22 * ms); ex_env (22 * ms)] in let q := rd_run ex_opts None D (fst r) evs2 in
  rd_done (fst r) = false /\ rd_conn (fst r) = RActive /\ Forall link_up (iters evs2) /\ length (ReqSpec.handed (snd r)) = 1%nat /\ quiet_iters (iters evs2) = 2%nat /\ length (ReqSpec.handed (snd r ++ snd q)) = 2%nat.
Proof. intros D. split; [vm_compute; reflexivity|]. split; [vm_compute; reflexivity|]. split; [apply Forall_forall; intros e He; cbn [iters flat_map map app In] in He; repeat (destruct He as [<-|He]; [unfold link_up; cbn; repeat split; first [now left | right; eexists; reflexivity]|]); destruct He|]. vm_compute. repeat split. Qed.
(*@example The server talks all the time: three messages, and the two calls made before stay where they are. *)
Lemma C90_reading_first_example_pf :
  forall D, let r := rd_run ex_opts None D rd_init [EIter (ex_env 0); EIter (ex_env (20 * ms)); EIter (ex_conn (21 * ms) true); EReq 7 [x68]; EReq 8 [x79]] in
  let q := rd_run ex_opts None D (fst r) (map EIter [ex_resp 9 [x00]; ex_resp 10 [x00]; ex_resp 11 [x00]]) in
  rd_done (fst r) = false /\ rd_conn (fst r) = RActive /\ snd q = [] /\ length (rd_cmds (fst q)) = 2%nat.
Proof. intros D. vm_compute. repeat split. Qed.
(*@example One client with two requests, the second of which has been answered: four turns are enough. *)
Lemma C90_response_example_pf :
  let evs := [VAccept; VConn 0 (Some (Some 7)); VPeer 7 (rx_penv (NxMsg (rr_new 3 x00 [x41]))); VPeer 7 (rx_penv (NxMsg (rr_new 4 x00 [x42]))); VRecv; VRecv; VRespond 1 [x62]] in
  let r := rp_run None 0 None None sx_D rp_init evs in let evs2 := repeat (VPeer 7 (rx_penv NxPending)) 4 in let q := rp_run None 0 None None sx_D (fst r) evs2 in
  In (RResponded 1 [x62] true) (snd r) /\ takes_frames 7 evs2 /\ length (requests_on 0 (snd r ++ snd q)) = 2%nat /\ peer_turns 7 evs2 = 4%nat /\ length (handed_on 0 (snd q)) = 1%nat.
Proof. split; [vm_compute; repeat first [now left | right]|]. split; [intros e He; apply repeat_spec in He; injection He as ->; cbn; repeat split; discriminate|]. vm_compute. repeat split. Qed.
(*@example The same client offers a third request at every turn: it is read at the third turn, after the answer has been queued and written. *)
Lemma C90_reading_example_pf :
  let evs := [VAccept; VConn 0 (Some (Some 7)); VPeer 7 (rx_penv (NxMsg (rr_new 3 x00 [x41]))); VPeer 7 (rx_penv (NxMsg (rr_new 4 x00 [x42]))); VRecv; VRecv; VRespond 1 [x62]] in
  let r := rp_run None 0 None None sx_D rp_init evs in let evs2 := repeat (VPeer 7 (rx_penv (NxMsg (rr_new 5 x00 [x43])))) 3 in let q := rp_run None 0 None None sx_D (fst r) evs2 in
  takes_frames 7 evs2 /\ offers_requests 7 evs2 /\ requests_on 0 (snd (rp_run None 0 None None sx_D (fst r) (firstn 2 evs2))) = [] /\ requests_on 0 (snd q) = [2].
Proof. split; [intros e He; apply repeat_spec in He; injection He as ->; cbn; repeat split; discriminate|]. split; [intros e He; apply repeat_spec in He; injection He as ->; eexists; reflexivity|]. vm_compute. repeat split. Qed.
(*@example A session with room for two messages, three published: it skips the first, takes the others, and reads the subscriber's frame after that. *)
Lemma C90_publication_example_pf :
  let r := pb_run None 2 0 None None pb_init [WAccept; WConn 0 (Some true); WPublish [x61] [x01]; WPublish [x61] [x02]; WPublish [x61] [x03]] in
  let evs2 := repeat (WSession 0 (px_env (px_sub [x61]))) 7 in let q := pb_run None 2 0 None None (fst r) evs2 in
  ready_polls 0 evs2 = 7%nat /\ N.to_nat (bcast_cap 2) = 2%nat /\ mem 0 (pb_sess (fst r)) = true /\ pb_closed (fst r) = false /\ offers_control 0 evs2 /\ nothing_published evs2 /\
  In (QSkipped 0 0 1) (snd q) /\ In (QTook 0 1) (snd q) /\ In (QTook 0 2) (snd q) /\ exists m op, In (QControl 0 m op) (snd q).
Proof.
  split; [reflexivity|]. split; [reflexivity|]. split; [vm_compute; reflexivity|]. split; [vm_compute; reflexivity|]. split; [intros e He; apply repeat_spec in He; injection He as ->; eexists; reflexivity|].
  split; [intros ev He; apply repeat_spec in He; subst; exact I|]. repeat (split; [vm_compute; repeat first [now left | right]|]). do 2 eexists. vm_compute. repeat first [now left | right].
Qed.
(*@example Two topics are subscribed; the connection takes one frame per turn; four quiet turns, with a message from the publisher in between. *)
Lemma C90_subscription_example_pf :
  let r := sx_run (sx_open ++ [YApi (ApSub true [x62]); YCommand]) in
  let one := mkYenv true PnPending [SaOk] 5 in
  let evs2 := [YSess 0 one; YSess 0 one; YSess 0 (mkYenv true (sx_msg x00 [x01]) [SaOk] 5); YSess 0 one; YSess 0 one] in
  let q := sb_run None 4 1000 sx_D (fst r) evs2 in
  nth_error (enqueued 0 (snd r)) 1 = Some (SSub [x62]) /\ sub_link_up 0 evs2 /\ quiet_sess_turns 0 evs2 = 4%nat /\ SubSpec.got 0 (snd r) = [] /\ wired 0 (snd r) = [] /\
  map ps_topic (wired 0 (snd q)) = map ctl_topic [SSub [x61]; SSub [x62]].
Proof. split; [vm_compute; reflexivity|]. split; [intros e He; cbn in He; repeat (destruct He as [He|He]; [injection He as <-; eexists; reflexivity|]); destruct He|]. vm_compute. repeat split. Qed.
