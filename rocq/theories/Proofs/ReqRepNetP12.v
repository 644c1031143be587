(** The joint model of a request and a reply socket: the way to rest. *)
From Coq Require Import ZArith Permutation Sorting.Sorted.
From Verif Require Import Model.Base Model.Map Model.Framed Model.WireReqRep Model.WireAuth Model.Compression Model.Backoff Model.Handshake Model.ReqDriver Model.RepDriver Model.Net Model.ReqRepNet
  Spec.Wire Spec.Stream Spec.AuthSpec Spec.CompressSpec Spec.ReqSpec Spec.RepSpec Spec.NetSpec Spec.NetSpec3 Spec.NetSpec4
  Proofs.BaseP Proofs.MapP Proofs.FramedP Proofs.FramedP2 Proofs.ReqRepP Proofs.AuthP Proofs.NetP
  Proofs.ReqDriverP Proofs.RepDriverP Proofs.RepDriverP2 Proofs.RepDriverP3 Proofs.RepDriverP5 Proofs.RepDriverP6 Proofs.RepNetP Proofs.ReqRepNetP Proofs.ReqRepNetP2 Proofs.ReqRepNetP3 Proofs.ReqRepNetP4 Proofs.ReqRepNetP5 Proofs.ReqRepNetP6 Proofs.ReqRepNetP7 Proofs.ReqRepNetP8 Proofs.ReqRepNetP9 Proofs.ReqRepNetP10 Proofs.ReqRepNetP11.
From Verif Require Proofs.T_Req Proofs.T_Rep Proofs.T_Compress.
Local Open Scope N_scope.

(** ** Discarded and unsendable requests *)
Section D.
Variables (max : option N) (min : N) (auth : option (bytes -> bool)) (sco : option compressor) (D : decompressors).
Definition ends (L : list rout) : Prop :=
  (forall r, In (RDiscarded r) L -> exists q, In (RYield q) L /\ q_rid q = r) /\
  (forall c r, In (RUnsendable c r) L -> exists x id, In (RResponded r x true) L /\ rep_outgoing min sco id x = None).
Definition is_end (x : rout) : bool := match x with RDiscarded _ | RUnsendable _ _ => true | _ => false end.
Lemma ends_same L o : ends L -> none_of is_end o -> ends (L ++ o).
Proof using.
  intros [E1 E2] No. split; intros.
  - apply (in_none is_end) in H; [|exact No|reflexivity]. destruct (E1 _ H) as (q & Hq & E). exists q. split; [apply in_or_app; left; exact Hq|exact E].
  - apply (in_none is_end) in H; [|exact No|reflexivity]. destruct (E2 _ _ H) as (x & id & Hx & E). exists x, id. split; [apply in_or_app; left; exact Hx|exact E].
Qed.
Definition ending (L : list rout) (s : rp) : Prop := inv2 min sco L s /\ gots L s /\ ends L.
Lemma run_ends evs s L : rp_run max min auth sco D rp_init evs = (s, L) -> ends L.
Proof using.
  intros R. assert (X : forall L' s', rp_run max min auth sco D rp_init evs = (s', L') -> inv2 min sco L' s') by (intros; eapply run_inv2; eauto). clear X.
  enough (ending L s) by (destruct H as (_ & _ & H); exact H). revert evs s L R. apply (RepDriverP.run_inv max min auth sco D ending).
  - intros L s oo s' (I2 & G & E) P.
    assert (I2' : inv2 min sco (L ++ oo) s'). { destruct I2 as (I & Q & A & F & T). split; [eapply inv1_prim; eauto|]. split; [eapply reqs_prim; eauto|]. split; [eapply apps_prim; eauto|]. split; [eapply frames_prim; eauto|]. eapply fate_prim; eauto. apply I. }
    split; [exact I2'|]. split; [eapply gots_prim; eauto|]. pose proof E as [E1 E2]. destruct P; try (apply ends_same; [exact E|intros z Hz; fins Hz]; fail).
    + split; intros.
      * apply in_app_or in H4. destruct H4 as [H4|[H4|[]]]; [|discriminate]. destruct (E1 _ H4) as (q & Hq & Er). exists q. split; [apply in_or_app; left; exact Hq|exact Er].
      * apply in_app_or in H4. destruct H4 as [H4|[H4|[]]]; [destruct (E2 _ _ H4) as (y & i & Hx & Er); exists y, i; split; [apply in_or_app; left; exact Hx|exact Er]|]. inversion H4; subst.
        exists x, id. split; [|exact H3]. apply in_or_app; left. destruct I2 as (_ & _ & (_ & _ & _ & _ & A5) & _). apply A5. exact H2.
    + apply ends_same; [exact E|]. intros z Hz. unfold rp_on_request in Hz. destruct (try_decompress D _ _); [destruct (rp_dropped _ || _)|]; cbn in Hz; fins Hz.
    + apply ends_same; [exact E|]. intros z Hz. apply in_app_or in Hz. destruct Hz as [Hz|Hz]; [fins Hz|]. apply insert_log in Hz. destruct Hz as [->|(p & _ & _ & ->)]; reflexivity.
    + apply ends_same; [exact E|]. intros z Hz. apply insert_log in Hz. destruct Hz as [->|(p & _ & _ & ->)]; reflexivity.
    + split; intros.
      * apply in_app_or in H0. destruct H0 as [H0|[H0|[]]]; [destruct (E1 _ H0) as (q & Hq & Er); exists q; split; [apply in_or_app; left; exact Hq|exact Er]|]. inversion H0; subst.
        destruct G as (_ & G2 & G3 & _). destruct (G3 _ H) as (q & Hq & Er). exists q. split; [apply in_or_app; left; apply G2; exact Hq|exact Er].
      * apply in_app_or in H0. destruct H0 as [H0|[H0|[]]]; [|discriminate]. destruct (E2 _ _ H0) as (x & i & Hx & Er); exists x, i; split; [apply in_or_app; left; exact Hx|exact Er].
    + split; intros.
      * apply in_app_or in H. destruct H as [H|[H|H]]; [|discriminate|]; [destruct (E1 _ H) as (q & Hq & Er); exists q; split; [apply in_or_app; left; exact Hq|exact Er]|]. apply in_map_iff in H. destruct H as (q & Eq & Hq). inversion Eq; subst.
        destruct G as (G1 & _). exists q. split; [apply in_or_app; left; apply G1; exact Hq|reflexivity].
      * apply in_app_or in H. destruct H as [H|[H|H]]; [|discriminate|]; [destruct (E2 _ _ H) as (x & i & Hx & Er); exists x, i; split; [apply in_or_app; left; exact Hx|exact Er]|]. apply in_map_iff in H. destruct H as (q & Eq & Hq). discriminate.
  - split; [|split; [|split]].
    + apply (run_inv2 max min auth sco D [] rp_init []). reflexivity.
    + apply (run_gots max min auth sco D [] rp_init []). reflexivity.
    + intros r [].
    + intros c r [].
Qed.
Lemma lost_incoming evs s L r : rp_run max min auth sco D rp_init evs = (s, L) -> In (RLost r) L \/ In (RDiscarded r) L -> exists c a m, In (RIncoming c a r m) L.
Proof using.
  intros R [H|H].
  - apply in_split in H. destruct H as (a & b & E). destruct (RepDriverP3.run_inv3 max min auth sco D _ _ _ R) as (_ & (_ & _ & _ & _ & _ & Y) & _). destruct (Y _ _ _ E) as (b0 & c & a0 & m & E' & _). exists c, a0, m. rewrite E, E'. apply in_or_app; left. apply in_or_app; right; left; reflexivity.
  - destruct (run_ends _ _ _ R) as [E1 _]. destruct (E1 _ H) as (q & Hq & <-). apply in_split in Hq. destruct Hq as (a & b & E). destruct (run_yord max min auth sco D _ _ _ R) as (Y & _). destruct (Y _ _ _ E) as (b0 & c & m & E' & _).
    exists c, (q_source q), m. rewrite E, E'. apply in_or_app; left. apply in_or_app; right; left; reflexivity.
Qed.
Lemma unsendable_none evs s L c r : rp_run max min auth sco D rp_init evs = (s, L) -> replies_fit sco L -> ~ In (RUnsendable c r) L.
Proof using.
  intros R Fit H. destruct (run_ends _ _ _ R) as [_ E2]. destruct (E2 _ _ H) as (x & id & Hx & E). destruct (Fit _ _ Hx) as [_ X]. unfold rep_outgoing in E. destruct sco as [cm|]; [|discriminate]. destruct (X cm eq_refl) as (z & Ez & _). rewrite Ez in E. discriminate.
Qed.
(** A request is received once. *)
Lemma received_once evs s L a r q a' q' : rp_run max min auth sco D rp_init evs = (s, L) -> In (RReceived (mkReq a r q)) L -> In (RReceived (mkReq a' r q')) L -> q = q'.
Proof using.
  intros R H H'. destruct (received_incoming max min auth sco D _ _ _ _ R H) as (c & m & I1 & D1). destruct (received_incoming max min auth sco D _ _ _ _ R H') as (c' & m' & I1' & D1'). cbn in *.
  destruct (run_inv2 max min auth sco D _ _ _ R) as (_ & (_ & Q2 & _) & _). destruct (Q2 _ _ _ _ _ _ _ I1 I1') as (_ & _ & ->). congruence.
Qed.
End D.

Section C.
Variables (o : ropts) (token : option bytes) (cco : option compressor)
          (max : option N) (min : N) (auth : option (bytes -> bool)) (sco : option compressor) (D : decompressors).
Hypothesis TOK : forall t, token = Some t -> blen t < 2 ^ 32.
Hypothesis IC : forall cm, cco = Some cm -> inverse_of D cm.
Hypothesis IS : forall cm, sco = Some cm -> inverse_of D cm.
Notation YI := (YI o token cco max min auth sco D).
Notation run := (y_run o token cco max min auth sco D).
Notation step := (y_step o token cco max min auth sco D).

Lemma way f now cid l addr : (forall q, reply_fits sco (f q)) -> forall n evs p k, (W addr l (run evs) <= n)%nat ->
  requests_fit cco evs -> replies_fit sco (sy_slog (run evs)) -> conn_at (run evs) cid l addr p k ->
  exists more p' k', let y' := run (evs ++ more) in (length more <= n)%nat /\ Forall (cooperative now) more /\ conn_at y' cid l addr p' k' /\ at_rest y' cid l /\ replies_fit sco (sy_slog y') /\
    (exists a, sy_clog y' = sy_clog (run evs) ++ a /\ Forall fine_client a) /\
    (exists b, sy_slog y' = sy_slog (run evs) ++ b /\ forall L, (forall z, In z (sy_slog y') -> In z L) -> Forall (fine_server f L) b) /\
    (forall l', l' <> l -> mget l' (sy_links y') = mget l' (sy_links (run evs))).
Proof using TOK IC IS.
  intros Rf. induction n as [|n IH]; intros evs p k Hn Rq Ro Cn.
  all: destruct (progress o token cco max min auth sco D TOK IC IS f now evs cid l addr p k Rq Ro Rf Cn) as [Rest|(ev & Co & (p1 & k1 & Cn1) & Lw & (a & Ea & Fa) & (b & Eb & Fb) & Rp & Ot)].
  1, 3: exists [], p, k; cbv zeta; rewrite app_nil_r; split; [cbn; lia|]; split; [constructor|]; split; [exact Cn|]; split; [exact Rest|]; split; [exact Ro|]; split; [exists []; rewrite app_nil_r; auto|]; split; [exists []; rewrite app_nil_r; auto|auto].
  - lia.
  - assert (E : run (evs ++ [ev]) = step (run evs) ev) by (unfold y_run; rewrite fold_left_app; reflexivity).
    assert (Rq' : requests_fit cco (evs ++ [ev])) by (unfold requests_fit; rewrite (better_asked now) by exact Co; exact Rq).
    destruct (IH (evs ++ [ev]) p1 k1) as (more & p' & k' & X); [rewrite E; lia|exact Rq'|rewrite E; apply Rp; exact Ro|rewrite E; exact Cn1|]. cbv zeta in X. rewrite <- app_assoc in X. cbn [app] in X.
    destruct X as (Lm & Cm & Cn' & Rs & Ro' & (a' & Ea' & Fa') & (b' & Eb' & Fb') & Ot'). exists (ev :: more), p', k'. cbv zeta. split; [cbn [length]; lia|]. split; [constructor; assumption|]. split; [exact Cn'|]. split; [exact Rs|]. split; [exact Ro'|].
    rewrite E in Ea', Eb', Ot'. split; [|split].
    + exists (a ++ a'). rewrite app_assoc, <- Ea. split; [exact Ea'|]. apply Forall_app; auto.
    + exists (b ++ b'). rewrite app_assoc, <- Eb. split; [exact Eb'|]. intros L HL. apply Forall_app. split; [|apply Fb'; exact HL]. apply Fb. intros z Hz. apply HL. rewrite Eb'. apply in_or_app; left; exact Hz.
    + intros l' Hl. rewrite Ot', Ot by exact Hl. reflexivity.
Qed.

Definition outcome (f : bytes -> bytes) (now : N) (evs more : list yev) (cid l : N) : Prop :=
  let y := run evs in let y' := run (evs ++ more) in
  Forall (cooperative now) more /\ connected y' cid l /\ at_rest y' cid l /\
    (exists a, sy_clog y' = sy_clog y ++ a /\ Forall fine_client a) /\
    (exists b, sy_slog y' = sy_slog y ++ b /\ Forall (fine_server f (sy_slog y')) b) /\
    (forall l', l' <> l -> mget l' (sy_links y') = mget l' (sy_links y)).
Lemma conn_at_connected y cid l : (exists addr p k, conn_at y cid l addr p k) <-> connected y cid l.
Proof using.
  clear. split.
  - intros (addr & p & k & H1 & H2 & H3 & H4 & H5 & H6 & H7 & H8 & H9 & H10). unfold connected. do 5 (split; [assumption|]). split; eauto 6.
  - intros (H1 & H2 & H3 & H4 & H5 & (addr & p & H6 & H7 & H8) & (k & H9 & H10)). exists addr, p, k. unfold conn_at. auto 12.
Qed.
Lemma work_W evs cid l addr p k : conn_at (run evs) cid l addr p k -> W addr l (run evs) = work_left (run evs) cid l.
Proof using TOK.
  clear IC IS. intros (H1 & H2 & H3 & H4 & H5 & H6 & H7 & H8 & H9 & H10). unfold W, work_left, link_work, session_work. f_equal. f_equal. rewrite H6.
  pose proof (y_inv o token cco max min auth sco D TOK evs) as (_ & _ & (S1 & _)). pose proof (run_inv1 max min auth sco D _ _ _ S1) as I1.
  destruct (find _ (rp_peers (sy_s (run evs)))) as [[a p']|] eqn:F.
  - apply find_some in F. destruct F as [Hin B]. cbn [snd] in B. apply andb_prop in B. destruct B as [B1 B2]. apply N.eqb_eq in B2.
    assert (G : mget a (rp_peers (sy_s (run evs))) = Some p') by (apply in_mget; [apply I1|exact Hin]).
    assert (a = addr) by (eapply (open_inj); eauto; congruence). subst a. rewrite H6 in G. inversion G; subst. reflexivity.
  - exfalso. apply mget_in in H6. apply (find_none _ _ F) in H6. cbn [snd] in H6. rewrite H7, H8, N.eqb_refl in H6. discriminate.
Qed.
Lemma way_out f now evs cid l : requests_fit cco evs -> replies_fit sco (sy_slog (run evs)) -> (forall q, reply_fits sco (f q)) -> connected (run evs) cid l ->
  exists more, outcome f now evs more cid l /\ (length more <= work_left (run evs) cid l)%nat /\ replies_fit sco (sy_slog (run (evs ++ more))).
Proof using TOK IC IS.
  intros Rq Ro Rf Cn. apply conn_at_connected in Cn. destruct Cn as (addr & p & k & Cn).
  destruct (way f now cid l addr Rf _ evs p k (le_n _) Rq Ro Cn) as (more & p' & k' & X). cbv zeta in X. destruct X as (Lm & Cm & Cn' & Rs & Ro' & A & (b & Eb & Fb) & Ot).
  exists more. split; [|split; [rewrite <- (work_W evs cid l addr p k Cn); exact Lm|exact Ro']]. unfold outcome. split; [exact Cm|]. split; [apply conn_at_connected; eauto|]. split; [exact Rs|]. split; [exact A|]. split; [exists b; auto|exact Ot].
Qed.

Lemma coop_asked now evs more : Forall (cooperative now) more -> asked (evs ++ more) = asked evs.
Proof using.
  clear. revert evs. induction more as [|ev more IH]; intros evs H; [rewrite app_nil_r; reflexivity|]. inversion H; subst. change (ev :: more) with ([ev] ++ more). rewrite app_assoc, IH by assumption. eapply better_asked; eauto.
Qed.
Definition settled (f : bytes -> bytes) (evs more : list yev) (cid l : N) : Prop :=
  let y := run evs in let y' := run (evs ++ more) in
  (asked (evs ++ more) = asked evs)%type /\ connected y' cid l /\ at_rest y' cid l /\
    (exists a, sy_clog y' = sy_clog y ++ a /\ Forall fine_client a) /\
    (exists b, sy_slog y' = sy_slog y ++ b /\ Forall (fine_server f (sy_slog y')) b) /\
    (forall l', l' <> l -> mget l' (sy_links y') = mget l' (sy_links y)).
Lemma answered_settled f evs more cid l c p : requests_fit cco evs -> replies_fit sco (sy_slog (run (evs ++ more))) -> settled f evs more cid l ->
  NoDup (map fst (asked evs)) -> answers_with f (sy_slog (run evs)) -> In (c, p) (asked evs) -> ~ has_result (run evs) c ->
  In (Resolve c (OOk (f p))) (sy_clog (run (evs ++ more))) \/
  exists t m, In (Accept t c m) (sy_clog (run (evs ++ more))) /\ try_decompress D (rr_ctype m) (rr_payload m) = Some p /\ lost_before (run evs) cid l m.
Proof using TOK IC IS.
  intros Rq Ro (As & Cn & (Dr & Si & Ci & Ch & Hd) & (a & Ea & Fa) & (b & Eb & Fb) & Ot) Nd An Hc Nr. rewrite Forall_forall in Fa, Fb.
  assert (Rq' : requests_fit cco (evs ++ more)) by (unfold requests_fit; rewrite As; exact Rq).
  assert (Ff : frames_fit (run (evs ++ more))) by (apply (fits o token cco max min auth sco D TOK IC); assumption).
  assert (Y : YI (run evs)) by (apply y_inv; exact TOK). pose proof Y as (_ & _ & (S1 & _)).
  assert (Y' : YI (run (evs ++ more))) by (apply y_inv; exact TOK). pose proof Y' as (_ & _ & (S1' & _)).
  pose proof (call_at_rest o token cco max min auth sco D TOK (evs ++ more) cid l c p) as CR. cbv zeta in CR. rewrite As in CR. destruct Cn as (_ & _ & _ & Hcc & _).
  destruct (CR (proj1 Rq) Ff IC Nd Hcc Dr Si Ci Hc) as [(r & Hr)|(t & m & Ha & Dm & Lost)].
  - left. assert (Ha : In (Resolve c r) a). { rewrite Ea in Hr. apply in_app_or in Hr. destruct Hr as [Hr|Hr]; [exfalso; apply Nr; exists r; exact Hr|exact Hr]. }
    specialize (Fa _ Ha). cbn in Fa. destruct r as [x| | |]; try contradiction.
    pose proof (end_to_end o token cco max min auth sco D TOK (evs ++ more) c x) as EE. cbv zeta in EE. rewrite As in EE. destruct (EE (proj1 Rq) Ff IC IS Hr) as (p' & ad & rid & Hp & H1 & H2).
    assert (p' = p). { clear - Nd Hc Hp. induction (asked evs) as [|[c1 p1] q IH]; [contradiction|]. cbn in Nd. inversion Nd as [|? ? N1 N2]; subst. destruct Hc as [Hc|Hc], Hp as [Hp|Hp]; try (inversion Hc; inversion Hp; subst; congruence); auto.
      - inversion Hc; subst. destruct N1. apply (in_map fst) in Hp. exact Hp.
      - inversion Hp; subst. destruct N1. apply (in_map fst) in Hc. exact Hc. } subst p'.
    replace (f p) with x; [exact Hr|]. rewrite Eb in H2. apply in_app_or in H2. destruct H2 as [H2|H2].
    + destruct (run_gots max min auth sco D _ _ _ S1) as (_ & _ & _ & G4). destruct (G4 _ _ _ H2) as ([a0 r0 q0] & Hq & Er). cbn in Er. subst r0. rewrite (An _ _ _ _ Hq H2). f_equal.
      eapply (received_once max min auth sco D); [exact S1'| |exact H1]. rewrite Eb. apply in_or_app; left. exact Hq.
    + destruct (Fb _ H2) as (a0 & q0 & Hq & ->). f_equal. eapply (received_once max min auth sco D); [exact S1'|exact Hq|exact H1].
  - right. exists t, m. split; [exact Ha|]. split; [exact Dm|]. destruct Lost as [H|[(l' & Nl & k & G & Hm)|(rid & Hr & Un)]].
    + left. rewrite Ea in H. apply in_app_or in H. destruct H as [H|H]; [exact H|destruct (Fa _ H)].
    + right; left. exists l'. split; [exact Nl|]. exists k. rewrite <- Ot by exact Nl. auto.
    + right; right. exists rid. assert (Un' : In (RLost rid) (sy_slog (run evs)) \/ In (RDiscarded rid) (sy_slog (run evs))).
      { destruct Un as [[W|(q & W & _)]|[H|[H|H]]].
        - rewrite Hd in W. destruct W.
        - rewrite Ch in W. destruct W.
        - right. rewrite Eb in H. apply in_app_or in H. destruct H as [H|H]; [exact H|destruct (Fb _ H)].
        - left. rewrite Eb in H. apply in_app_or in H. destruct H as [H|H]; [exact H|destruct (Fb _ H)].
        - destruct (unsendable_none max min auth sco D _ _ _ _ _ S1' Ro H). }
      destruct (lost_incoming max min auth sco D _ _ _ _ S1 Un') as (c0 & a0 & m0 & Hi). destruct Un' as [Un'|Un']; (split; [|auto]).
      all: unfold requests_on in Hr |- *; apply in_flat_map in Hr; destruct Hr as (x & Hx & Hr); destruct x; try contradiction; destruct (eq_dec cid0 cid) as [->|]; [|contradiction]; destruct Hr as [Hr|[]]; inversion Hr; subst;
        destruct (run_inv2 max min auth sco D _ _ _ S1') as (_ & (_ & Q2 & _) & _); assert (Hi' : In (RIncoming c0 a0 rid m0) (sy_slog (run (evs ++ more)))) by (rewrite Eb; apply in_or_app; left; exact Hi);
        destruct (Q2 _ _ _ _ _ _ _ Hi' Hx) as (-> & -> & ->); apply in_flat_map; eexists; (split; [exact Hi|]); cbn; destruct (eq_dec cid cid); [left; reflexivity|congruence].
Qed.
Lemma answered f now evs more cid l c p : requests_fit cco evs -> replies_fit sco (sy_slog (run (evs ++ more))) -> outcome f now evs more cid l ->
  NoDup (map fst (asked evs)) -> answers_with f (sy_slog (run evs)) -> In (c, p) (asked evs) -> ~ has_result (run evs) c ->
  In (Resolve c (OOk (f p))) (sy_clog (run (evs ++ more))) \/
  exists t m, In (Accept t c m) (sy_clog (run (evs ++ more))) /\ try_decompress D (rr_ctype m) (rr_payload m) = Some p /\ lost_before (run evs) cid l m.
Proof using TOK IC IS.
  intros Rq Ro (Cm & H) Nd An Hc Nr. eapply answered_settled; eauto. split; [eapply coop_asked; eauto|exact H].
Qed.
End C.
