(** The joint model of a request and a reply socket: every fair schedule comes to rest. *)
From Coq Require Import ZArith Permutation Sorting.Sorted Wf_nat.
From Verif Require Import Model.Base Model.Map Model.Framed Model.WireReqRep Model.WireAuth Model.Compression Model.Backoff Model.Handshake Model.ReqDriver Model.RepDriver Model.Net Model.ReqRepNet
  Spec.Wire Spec.Stream Spec.AuthSpec Spec.CompressSpec Spec.ReqSpec Spec.RepSpec Spec.NetSpec Spec.NetSpec3 Spec.NetSpec4 Spec.NetSpec7
  Proofs.BaseP Proofs.MapP Proofs.FramedP Proofs.FramedP2 Proofs.ReqRepP Proofs.AuthP Proofs.NetP
  Proofs.ReqDriverP Proofs.RepDriverP Proofs.RepDriverP2 Proofs.RepDriverP3 Proofs.RepDriverP5 Proofs.RepDriverP6 Proofs.RepNetP Proofs.ReqRepNetP Proofs.ReqRepNetP2 Proofs.ReqRepNetP3 Proofs.ReqRepNetP4 Proofs.ReqRepNetP5 Proofs.ReqRepNetP6 Proofs.ReqRepNetP7 Proofs.ReqRepNetP8 Proofs.ReqRepNetP9 Proofs.ReqRepNetP10 Proofs.ReqRepNetP11 Proofs.ReqRepNetP12 Proofs.ReqRepNetP15 Proofs.ReqRepNetP16.
From Verif Require Proofs.T_Req Proofs.T_Rep Proofs.T_Compress.
Local Open Scope N_scope.

Lemma core_W addr l y y' : core addr l y' = core addr l y -> W addr l y' = W addr l y.
Proof.
  unfold core, W. intros E. inversion E as [[E1 E2 E3 E4 E5 E6 E7]]. 
  destruct (mget addr (rp_peers (sy_s y'))) as [p'|], (mget addr (rp_peers (sy_s y))) as [p|]; try discriminate; 
  destruct (mget l (sy_links y')) as [k'|], (mget l (sy_links y)) as [k|]; try discriminate; cbn [option_map] in E6, E7; try (inversion E6; clear E6); try (inversion E7; clear E7); congruence.
Qed.
Lemma core_ks addr l y y' : core addr l y' = core addr l y -> ks addr l y -> ks addr l y'.
Proof.
  unfold core, ks. intros E K p k G H. inversion E as [[E1 E2 E3 E4 E5 E6 E7]]. rewrite G in E6. rewrite H in E7. 
  destruct (mget addr (rp_peers (sy_s y))) as [p0|]; [|discriminate]. destruct (mget l (sy_links y)) as [k0|]; [|discriminate]. cbn [option_map] in E6, E7. inversion E6 as [[A1 A2]]. inversion E7 as [[B1 B2 B3 B4]]. rewrite A1, A2, E5, B2, B3. apply (K p0 k0); reflexivity.
Qed.
Lemma core_kc addr l y y' : core addr l y' = core addr l y -> kc l y -> kc l y'.
Proof.
  unfold core, kc. intros E K k H. inversion E as [[E1 E2 E3 E4 E5 E6 E7]]. rewrite H in E7. 
  destruct (mget l (sy_links y)) as [k0|]; [|discriminate]. cbn [option_map] in E7. inversion E7 as [[B1 B2 B3 B4]]. rewrite E1, E2, B1, B4. apply (K k0); reflexivity.
Qed.

Section C.
Variables (o : ropts) (token : option bytes) (cco : option compressor)
          (max : option N) (min : N) (auth : option (bytes -> bool)) (sco : option compressor) (D : decompressors).
Hypothesis TOK : forall t, token = Some t -> blen t < 2 ^ 32.
Hypothesis IC : forall cm, cco = Some cm -> inverse_of D cm.
Hypothesis IS : forall cm, sco = Some cm -> inverse_of D cm.
Notation YI := (YI o token cco max min auth sco D).
Notation run := (y_run o token cco max min auth sco D).
Notation step := (y_step o token cco max min auth sco D).

(** What holds of the connection. *)
Record facts (y : sys) (l : N) (p : peer) (k : rlink) : Prop := mkFacts {
  fa_sc : rdir (lk_c k) (lk_s k); fa_cs : rdir (lk_s k) (lk_c k);
  fa_wc : Forall rr_wf (en_sent (lk_c k)); fa_ws : Forall rr_wf (en_sent (lk_s k));
  fa_hs : en_hs (lk_s k) = en_greet (lk_c k); fa_hc : en_hs (lk_c k) = en_greet (lk_s k);
  fa_gs : good (en_fr (lk_s k)); fa_gc : good (en_fr (lk_c k));
  fa_dc : forall m, In m (en_sent (lk_c k)) -> exists x, try_decompress D (rr_ctype m) (rr_payload m) = Some x;
  fa_ds : forall m, In m (en_sent (lk_s k)) -> exists x, try_decompress D (rr_ctype m) (rr_payload m) = Some x;
  fa_fit : forall r id x, In (r, id) (pr_pending p) -> mget r (rp_os (sy_s y)) = Some (OsSent x) -> reply_fits sco x;
  fa_id : rd_cmds (sy_c y) <> [] -> mget (rd_id (sy_c y)) (rd_pending (sy_c y)) = None;
  fa_task : rd_task (sy_c y) = false; fa_oc : en_on (lk_c k) = true; fa_os : en_on (lk_s k) = true }.

Lemma facts_ok evs cid l addr p k : requests_fit cco evs -> replies_fit sco (sy_slog (run evs)) -> conn_at (run evs) cid l addr p k -> facts (run evs) l p k.
Proof using TOK IC IS.
  set (y := run evs). intros Rq Ro Cn. pose proof Cn as (H1 & H2 & H3 & H4 & H5 & H6 & H7 & H8 & H9 & H10). unfold client_connection in H4.
  assert (Y : YI y) by (apply y_inv; exact TOK). assert (Ff : frames_fit y) by (apply (fits o token cco max min auth sco D TOK IC); assumption).
  assert (Lt : blen (issued (sy_cevs y)) < 2 ^ 32) by (unfold y; rewrite run_asked; apply Rq).
  pose proof Y as ((C1 & C2 & C3 & C4 & C5 & C6 & C7 & C8 & C9) & L & (S1 & S2 & S3 & S4 & S5 & S6 & S7)).
  pose proof (run_inv2 max min auth sco D _ _ _ S1) as (_ & _ & (_ & _ & _ & _ & A5) & Fr & _). pose proof Fr as (F1 & _ & _ & _ & F5 & _).
  pose proof (L _ _ H9) as Lk. pose proof Lk as (R1 & R2 & _).
  assert (Op : opn (sy_s y) cid) by (exists addr, p; auto).
  destruct (S6 _ _ _ H4 H9) as (B1 & B2 & _ & B4). specialize (B4 Op).
  assert (Oc : en_on (lk_c k) = true). { destruct (C5 _ H3) as (_ & k' & G' & On). congruence. }
  destruct (hs_both _ _ _ Lk Oc B4) as [Hs Hc].
  destruct (run_readers o token cco max min auth sco D TOK evs) as [Rc Rs]. fold y in Rc, Rs.
  constructor; try assumption.
  - eapply (sent_wf o token cco max min auth sco D); eauto.
  - exact (proj1 (item_origin o token cco max min auth sco D y l k (rr_new 0 x00 []) Y Lt Ff H9)).
  - destruct (Rs _ _ _ H4 H9 Op) as [X|X]; [exact X|]. unfold sfr in X. congruence.
  - eapply Rc; eauto.
  - intros m Hm. assert (T : In m (taken (sy_clog y))) by (rewrite <- C7; eapply sents_in; eauto). apply (taken_acc o token cco max min auth sco D y m Y) in T. apply in_map_iff in T. destruct T as ((c & m') & E & T). cbn in E. subst m'.
    eapply (acc_frame o token cco max min auth sco D TOK IC); eauto.
  - intros m Hm. rewrite B1 in Hm. unfold tak_on in Hm. apply in_flat_map in Hm. destruct Hm as (x & Hx & Hm). destruct x as [| | | | |c m' [|]| | | | | | | | | | | |]; try contradiction.
    destruct (eq_dec c cid) as [->|]; [|contradiction]. destruct Hm as [<-|[]].
    assert (X : In m' (map snd (queued_on cid (sy_slog y)))).
    { destruct (F5 cid) as (rest & E). rewrite E. apply in_or_app; left. unfold handed_on. apply in_flat_map. eexists. split; [exact Hx|]. cbn. destruct (eq_dec cid cid); [left; reflexivity|congruence]. }
    apply in_queued_on in X. destruct X as (r & X). destruct (F1 _ _ _ X) as (a & req & x & I1 & I2 & E). destruct (T_Rep.frame_answers min sco D _ _ _ _ _ _ _ I1 I2 E) as (a' & req' & x' & _ & _ & _ & Z). eauto.
  - intros r id x Hp Hx. eapply Ro. apply A5. exact Hx.
  - apply (next_id_free o token cco max min auth sco D); assumption.
  - apply (conn_ok o cco D _ _ _ C1); assumption.
Qed.

Lemma resting evs cid l addr p k : requests_fit cco evs -> replies_fit sco (sy_slog (run evs)) -> conn_at (run evs) cid l addr p k ->
  kr (run evs) \/ rp_held (sy_s (run evs)) <> [] \/ ks addr l (run evs) \/ kc l (run evs) \/ (at_rest (run evs) cid l /\ W addr l (run evs) = 0%nat /\ bytes_left l (run evs) = 0%nat).
Proof using TOK IC IS.
  set (y := run evs). intros Rq Ro Cn. pose proof (facts_ok evs cid l addr p k Rq Ro Cn) as Fa. fold y in Fa. pose proof Cn as (H1 & H2 & H3 & H4 & H5 & H6 & H7 & H8 & H9 & H10).
  destruct Fa as [R1 R2 Wc Ws Hs Hc _ _ _ _ _ _ _ Oc Os].
  destruct (rp_chan (sy_s y)) as [|q rest] eqn:Ch; [|left; unfold kr; congruence]. right.
  destruct (rp_held (sy_s y)) as [|rid hs] eqn:Hd; [|left; discriminate]. right.
  assert (PB : (pr_egress p <> [] \/ (exists e, In e (pr_pending p) /\ os_done (rp_os (sy_s y)) e = true) \/ en_items (lk_s k) <> en_sent (lk_c k)) -> ks addr l y).
  { intros Wk p0 k0 G0 G1. rewrite H6 in G0. rewrite H9 in G1. inversion G0; inversion G1; subst. exact Wk. }
  assert (CB : (rd_cmds (sy_c y) <> [] \/ rd_egress (sy_c y) <> [] \/ en_items (lk_c k) <> en_sent (lk_s k)) -> kc l y).
  { intros Wk k0 G1. rewrite H9 in G1. inversion G1; subst. exact Wk. }
  destruct (pr_egress p) as [|m eg] eqn:Eg; [|left; apply PB; left; discriminate].
  destruct (existsb (os_done (rp_os (sy_s y))) (pr_pending p)) eqn:Od; [apply existsb_exists in Od; left; apply PB; right; left; exact Od|].
  destruct (dir_items _ _ R1 Wc (or_introl Hs)) as [r1 E1]. destruct r1 as [|m1 r1]; [rewrite app_nil_r in E1|left; apply PB; right; right; rewrite E1; intros X; apply (f_equal (@length rr_msg)) in X; rewrite app_length in X; cbn in X; lia].
  destruct (dir_items _ _ R2 Ws (or_introl Hc)) as [r2 E2]. destruct r2 as [|m2 r2]; [rewrite app_nil_r in E2|right; left; apply CB; right; right; rewrite E2; intros X; apply (f_equal (@length rr_msg)) in X; rewrite app_length in X; cbn in X; lia].
  destruct (rd_cmds (sy_c y)) as [|c cs] eqn:Cm; [|right; left; apply CB; left; discriminate].
  destruct (rd_egress (sy_c y)) as [|c cs] eqn:Ce; [|right; left; apply CB; right; left; discriminate].
  right; right.
  assert (Ds : end_drained (lk_s k)) by (eapply all_items; eauto). assert (Dc : end_drained (lk_c k)) by (eapply all_items; eauto).
  assert (Pn : forall rid id, In (rid, id) (pr_pending p) -> mget rid (rp_os (sy_s y)) = Some OsWait).
  { intros rid id Hp. assert (X : os_done (rp_os (sy_s y)) (rid, id) = false). { destruct (os_done (rp_os (sy_s y)) (rid, id)) eqn:X; [|reflexivity]. exfalso. assert (Z : existsb (os_done (rp_os (sy_s y))) (pr_pending p) = true) by (apply existsb_exists; eauto). congruence. }
    unfold os_done in X. cbn [fst] in X. destruct (mget rid (rp_os (sy_s y))) as [[| |]|]; try discriminate. reflexivity. }
  assert (Y : YI y) by (apply y_inv; exact TOK). pose proof Y as (_ & _ & (S1 & _)).
  assert (Pe : pr_pending p = []).
  { destruct (pr_pending p) as [|[rid id] pd] eqn:Ep; [reflexivity|exfalso]. pose proof (Pn rid id (or_introl eq_refl)) as Ow.
    destruct (run_waits max min auth sco D _ _ _ S1) as (_ & Wt & _). destruct (Wt _ Ow) as [X|X]; [rewrite Hd in X; destruct X|]. rewrite Ch in X. destruct X. }
  split; [|split].
  - split; [exists k; split; [exact H9|]; split; [exact Oc|]; split; [exact Os|]; split; assumption|].
    split; [|split; [split; assumption|split; assumption]].
    exists addr, p. split; [exact H6|]. split; [exact H7|]. split; [exact H8|]. split; [exact Eg|exact Pn].
  - unfold W. rewrite Cm, Ce, Ch, Hd, H6, H9, Eg, Pe, E1, E2. cbn [length]. lia.
  - unfold bytes_left. rewrite H9. destruct Ds as (-> & _), Dc as (-> & _). reflexivity.
Qed.

Lemma job_moved f evs cid l addr p k ev : requests_fit cco evs -> replies_fit sco (sy_slog (run evs)) -> (forall q, reply_fits sco (f q)) -> conn_at (run evs) cid l addr p k ->
  (load l (run evs) <= 1024)%nat -> does_job f cid (run evs) ev -> moved sco f cid l addr (run evs) (step (run evs) ev) (strict addr l (run evs) ev).
Proof using TOK IC IS.
  intros Rq Ro Rf Cn Ld Jb. pose proof (facts_ok evs cid l addr p k Rq Ro Cn) as [R1 R2 Wc Ws Hs Hc Gs Gc Dc Ds Fi Id Tk Oc Os].
  assert (Im : forall (P Q : Prop) y', moved sco f cid l addr (run evs) y' P -> (Q -> P) -> moved sco f cid l addr (run evs) y' Q).
  { intros P Q y' (M1 & M2 & M3 & M4 & M5 & M6 & M7) PQ. split; [exact M1|]. split; [exact M2|]. split; [exact M3|]. split; [exact M4|]. split; [exact M5|]. split; [exact M6|]. destruct M7 as [M7|(X & Z & M7)]; [left; exact M7|right; split; [exact X|split; [exact Z|intros q; apply M7, PQ, q]]]. }
  assert (St : forall P : Prop, (client_turn l (run evs) ev -> kc l (run evs) -> P) -> (server_turn l (run evs) ev -> ks addr l (run evs) -> P) -> (ev = YRecv -> kr (run evs) -> P) -> (forall rid x, ev = YRespond rid x -> In rid (rp_held (sy_s (run evs))) -> P) -> strict addr l (run evs) ev -> P).
  { intros P A1 A2 A3 A4 [[X Z]|[[X Z]|[[X Z]|(rid & x & X & Z)]]]; eauto. }
  destruct ev as [| | |e fails tio nio| | | |a e i| |rid x| |]; try contradiction.
  - destruct Jb as (J1 & J2 & J3 & J4). eapply Im; [eapply (client_moved o token cco max min auth sco D); eauto|]. 
    + destruct (dir_items _ _ R1 Wc (or_introl Hs)) as [r E]. rewrite E, app_length. lia.
    + apply St; auto; [intros []|discriminate|discriminate].
  - destruct Jb as (J1 & J2 & p' & G' & E' & O'). assert (a = addr).
    { pose proof (y_inv o token cco max min auth sco D TOK evs) as (_ & _ & (S1 & _)). pose proof Cn as (_ & _ & _ & _ & _ & H6 & H7 & H8 & _). eapply open_inj; [exact (run_inv1 max min auth sco D _ _ _ S1)|exact G'|exact H6|exact O'|exact H8|congruence]. }
    subst a. eapply Im; [eapply (peer_moved o token cco max min auth sco D); eauto|]. apply St; auto; [intros []|discriminate|discriminate].
  - eapply Im; [eapply (recv_moved o token cco max min auth sco D); eauto|]. apply St; auto; [intros []|intros []|discriminate].
  - destruct Jb as (src & q & Hq & ->). eapply Im; [eapply (respond_moved o token cco max min auth sco D); eauto|]. apply St; auto; [intros []|intros []|discriminate|]. intros r x E H. inversion E; subst. exact H.
Qed.

(** ** Along a schedule *)
Section F.
Variables (f : bytes -> bytes) (evs : list yev) (cid l : N) (sched : nat -> yev).
Notation at_ n := (run (then_follow evs sched n)).
Hypothesis RQ : requests_fit cco evs.
Hypothesis RO : replies_fit sco (sy_slog (run evs)).
Hypothesis RF : forall q, reply_fits sco (f q).
Variable addr : N.
Hypothesis START : exists p k, conn_at (run evs) cid l addr p k.
Hypothesis LOAD : (load l (run evs) <= 1024)%nat.

Lemma follow_S n : then_follow evs sched (S n) = then_follow evs sched n ++ [sched n].
Proof using. clear. unfold then_follow. rewrite seq_S, map_app, app_assoc. reflexivity. Qed.
Lemma at_S n : at_ (S n) = step (at_ n) (sched n).
Proof using. clear. rewrite follow_S. unfold y_run. rewrite fold_left_app. reflexivity. Qed.
Lemma job_asked y ev evs0 : does_job f cid y ev -> asked (evs0 ++ [ev]) = asked evs0.
Proof using. clear. intros H. unfold asked. rewrite flat_map_app. destruct ev; try contradiction; cbn; apply app_nil_r. Qed.

Record good_at (n : nat) : Prop := mkGA {
  ga_asked : asked (then_follow evs sched n) = asked evs;
  ga_ro : replies_fit sco (sy_slog (at_ n));
  ga_conn : exists p k, conn_at (at_ n) cid l addr p k;
  ga_load : (load l (at_ n) <= 1024)%nat;
  ga_clog : exists a, sy_clog (at_ n) = sy_clog (run evs) ++ a /\ Forall fine_client a;
  ga_slog : exists b, sy_slog (at_ n) = sy_slog (run evs) ++ b /\ forall L, (forall z, In z (sy_slog (at_ n)) -> In z L) -> Forall (fine_server f L) b;
  ga_links : forall l', l' <> l -> mget l' (sy_links (at_ n)) = mget l' (sy_links (run evs)) }.
Lemma ga_rq n : good_at n -> requests_fit cco (then_follow evs sched n).
Proof using RQ. clear - RQ. intros G. unfold requests_fit. rewrite (ga_asked _ G). exact RQ. Qed.
Lemma good_job n : good_at n -> does_job f cid (at_ n) (sched n) -> moved sco f cid l addr (at_ n) (at_ (S n)) (strict addr l (at_ n) (sched n)).
Proof using TOK IC IS RQ RF. intros G J. destruct (ga_conn _ G) as (p & k & Cn). rewrite at_S. eapply job_moved; eauto; [apply ga_rq; exact G|apply G|apply G]. Qed.
Lemma good_0 : good_at 0.
Proof using RO START LOAD.
    assert (E : then_follow evs sched 0 = evs) by (unfold then_follow; apply app_nil_r). constructor; rewrite ?E; auto.
    + exists []. rewrite app_nil_r. auto.
    + exists []. rewrite app_nil_r. split; [reflexivity|]. intros; constructor.
Qed.
Lemma good_S n : good_at n -> does_job f cid (at_ n) (sched n) -> good_at (S n).
Proof using TOK IC IS RQ RF LOAD.
    intros IH J. destruct (good_job n IH J) as (M1 & M2 & (a & Ea & Fa) & (b & Eb & Fb) & M5 & M6 & _). constructor.
    + rewrite follow_S, (job_asked (at_ n)) by exact J. apply IH.
    + apply M5, IH.
    + exact M1.
    + pose proof (ga_load _ IH). lia.
    + destruct (ga_clog _ IH) as (a0 & E0 & F0). exists (a0 ++ a). split; [rewrite Ea, E0, app_assoc; reflexivity|apply Forall_app; auto].
    + destruct (ga_slog _ IH) as (b0 & E0 & F0). exists (b0 ++ b). split; [rewrite Eb, E0, app_assoc; reflexivity|]. intros L HL. apply Forall_app; split; [|apply Fb; exact HL]. apply F0. intros z Hz. apply HL. rewrite Eb. apply in_or_app; left; exact Hz.
    + intros l' Hl. rewrite M6 by exact Hl. apply IH, Hl.
Qed.
Hypothesis FAIR : fair f cid l (fun n => at_ n) sched.
Lemma good_all n : good_at n.
Proof using TOK IC IS RQ RO RF FAIR START LOAD. induction n as [|n IH]; [apply good_0|apply good_S; [exact IH|apply FAIR]]. Qed.
Lemma good_moved n : good_at n -> moved sco f cid l addr (at_ n) (at_ (S n)) (strict addr l (at_ n) (sched n)).
Proof using TOK IC IS RQ RF FAIR. intros G. apply good_job; [exact G|apply FAIR]. Qed.

(** From [n] on: something brings rest nearer, or nothing changes. *)
Lemma less_core y y' z : core addr l y = core addr l z -> bytes_left l y = bytes_left l z -> less addr l y' y -> less addr l y' z.
Proof using. clear. intros E B. unfold less. rewrite (core_W _ _ _ _ E), B. auto. Qed.
Lemma until n d : (exists j, less addr l (at_ (n + j)) (at_ n)) \/ (core addr l (at_ (n + d)) = core addr l (at_ n) /\ bytes_left l (at_ (n + d)) = bytes_left l (at_ n)).
Proof using TOK IC IS RQ RO RF FAIR START LOAD.
  induction d as [|d IH]; [right; rewrite Nat.add_0_r; auto|]. destruct IH as [IH|[E B]]; [left; exact IH|].
  destruct (good_moved (n + d) (good_all _)) as (_ & _ & _ & _ & _ & _ & [M|(E1 & B1 & _)]).
  - left. exists (S d). replace (n + S d)%nat with (S (n + d)) by lia. eapply less_core; eauto.
  - right. replace (n + S d)%nat with (S (n + d)) by lia. split; congruence.
Qed.
(** If what is needed comes some time, and still counts when it comes: something brings rest nearer. *)
Lemma turn_comes n m : (n <= m)%nat -> (core addr l (at_ m) = core addr l (at_ n) -> strict addr l (at_ m) (sched m)) -> exists j, less addr l (at_ (n + j)) (at_ n).
Proof using TOK IC IS RQ RO RF FAIR START LOAD.
  intros Le St. destruct (until n (m - n)) as [X|[E B]]; [exact X|]. replace (n + (m - n))%nat with m in * by lia.
  destruct (good_moved m (good_all _)) as (_ & _ & _ & _ & _ & _ & [M|(_ & _ & N0)]); [|destruct N0; apply St, E].
  exists (S m - n)%nat. replace (n + (S m - n))%nat with (S m) by lia. eapply less_core; eauto.
Qed.
Definition rest_at (n : nat) : Prop := at_rest (at_ n) cid l /\ W addr l (at_ n) = 0%nat /\ bytes_left l (at_ n) = 0%nat.
Lemma nearer n : rest_at n \/ exists j, less addr l (at_ (n + j)) (at_ n).
Proof using TOK IC IS RQ RO RF FAIR START LOAD.
  pose proof (good_all n) as G. destruct (ga_conn _ G) as (p & k & Cn). pose proof FAIR as (_ & FC & FS & FR & FH).
  destruct (resting _ cid l addr p k (ga_rq _ G) (ga_ro _ G) Cn) as [K|[K|[K|[K|K]]]]; [right..|left; exact K].
  - destruct (FR n) as (m & Le & E). apply (turn_comes n m Le). intros Ec. right; right; left. split; [exact E|]. unfold kr in *. unfold core in Ec. inversion Ec. congruence.
  - destruct (rp_held (sy_s (at_ n))) as [|rid hs] eqn:Hd; [congruence|]. destruct (FH n rid) as (m & x & Le & E); [rewrite Hd; left; reflexivity|].
    apply (turn_comes n m Le). intros Ec. right; right; right. exists rid, x. split; [exact E|]. unfold core in Ec. inversion Ec. replace (rp_held (sy_s (at_ m))) with (rid :: hs) by congruence. left; reflexivity.
  - destruct (FS n) as (m & Le & E). apply (turn_comes n m Le). intros Ec. right; left. split; [exact E|]. eapply core_ks; eauto.
  - destruct (FC n) as (m & Le & E). apply (turn_comes n m Le). intros Ec. left. split; [exact E|]. eapply core_kc; eauto.
Qed.
Lemma some_rest : exists n, rest_at n.
Proof using TOK IC IS RQ RO RF FAIR START LOAD.
  assert (K : forall w b n, W addr l (at_ n) = w -> bytes_left l (at_ n) = b -> exists m, rest_at m).
  { induction w as [w IHw] using lt_wf_ind. induction b as [b IHb] using lt_wf_ind. intros n Ew Eb. destruct (nearer n) as [R|(j & [L|[L1 L2]])]; [eauto| |].
    - eapply (IHw _); [|reflexivity|reflexivity]. rewrite <- Ew. exact L.
    - eapply (IHb _); [|rewrite L1; exact Ew|reflexivity]. rewrite <- Eb. exact L2. }
  eapply (K _ _ 0%nat); reflexivity.
Qed.
Lemma rest_stays n : rest_at n -> rest_at (S n).
Proof using TOK IC IS RQ RO RF FAIR START LOAD.
  intros (_ & Z1 & Z2). destruct (good_moved n (good_all n)) as (_ & _ & _ & _ & _ & _ & [[M|[M1 M2]]|(E & B & _)]); [lia|lia|].
  pose proof (core_W _ _ _ _ E) as EW. pose proof (good_all (S n)) as G. destruct (ga_conn _ G) as (p & k & Cn).
  destruct (resting _ cid l addr p k (ga_rq _ G) (ga_ro _ G) Cn) as [K|[K|[K|[K|K]]]]; [exfalso..|exact K]; rewrite Z1 in EW; unfold W in EW.
  - unfold kr in K. destruct (rp_chan (sy_s (at_ (S n)))); [congruence|cbn [length] in EW; lia].
  - destruct (rp_held (sy_s (at_ (S n)))); [congruence|cbn [length] in EW; lia].
  - pose proof Cn as (_ & _ & _ & _ & _ & H6 & _ & _ & H9 & _). rewrite H6, H9 in EW. pose proof (facts_ok _ cid l addr p k (ga_rq _ G) (ga_ro _ G) Cn) as [R1 R2 Wc Ws Hs Hc _ _ _ _ _ _ _ _ _].
    destruct (K _ _ H6 H9) as [X|[(e & He & _)|X]].
    + destruct (pr_egress p); [congruence|cbn [length] in EW; lia].
    + destruct (pr_pending p); [destruct He|cbn [length] in EW; lia].
    + destruct (dir_items _ _ R1 Wc (or_introl Hs)) as [r Er]. destruct r; [rewrite app_nil_r in Er; congruence|]. rewrite Er, app_length in EW. cbn [length] in EW. lia.
  - pose proof Cn as (_ & _ & _ & _ & _ & H6 & _ & _ & H9 & _). rewrite H6, H9 in EW. pose proof (facts_ok _ cid l addr p k (ga_rq _ G) (ga_ro _ G) Cn) as [R1 R2 Wc Ws Hs Hc _ _ _ _ _ _ _ _ _].
    destruct (K _ H9) as [X|[X|X]].
    + destruct (rd_cmds (sy_c (at_ (S n)))); [congruence|cbn [length] in EW; lia].
    + destruct (rd_egress (sy_c (at_ (S n)))); [congruence|cbn [length] in EW; lia].
    + destruct (dir_items _ _ R2 Ws (or_introl Hc)) as [r Er]. destruct r; [rewrite app_nil_r in Er; congruence|]. rewrite Er, app_length in EW. cbn [length] in EW. lia.
Qed.
Lemma comes_to_rest : exists n0, forall n, (n0 <= n)%nat -> settled o token cco max min auth sco D f evs (map sched (seq 0 n)) cid l /\ replies_fit sco (sy_slog (at_ n)).
Proof using TOK IC IS RQ RO RF FAIR START LOAD.
  destruct some_rest as (n0 & R0). exists n0. intros n Le. assert (R : rest_at n). { replace n with (n0 + (n - n0))%nat by lia. induction (n - n0)%nat as [|d IH]; [rewrite Nat.add_0_r; exact R0|]. rewrite Nat.add_succ_r. apply rest_stays, IH. }
  pose proof (good_all n) as G. split; [|apply G]. unfold settled. fold (then_follow evs sched n). split; [apply G|]. split; [apply conn_at_connected; destruct (ga_conn _ G) as (p & k & Cn); eauto|].
  split; [apply R|]. split; [apply G|]. split; [destruct (ga_slog _ G) as (b & E & F); exists b; split; [exact E|]; apply F; auto|apply G].
Qed.
End F.
End C.
